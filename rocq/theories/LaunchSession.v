(** What a started experiment consists of. *)
From Coq Require Import String Ascii List ZArith Lia Bool.
From Verif Require Import Base LaunchModel LaunchSpec LaunchProofs LaunchFamilies.
Import ListNotations.
Open Scope string_scope.

Section Session.
Variable w : world.
Variable a : args.

Lemma finish_ok d s : finish w a d = Ok s ->
  exists n sc, build_net w a d = Some (Ok n) /\ scheduler a = Ok sc /\
    s = mkSession n sc (i_test d) (Some (i_lift d)).
Proof.
  unfold finish. intros H. apply bind_ok in H as (_ & _ & H). apply bind_ok in H as (_ & _ & H).
  apply bind_ok in H as (n & H1 & H). apply bind_ok in H as (sc & H2 & H).
  exists n, sc. destruct (build_net w a d) as [r|]; [|discriminate]. subst r.
  injection H as <-. auto.
Qed.
Lemma gfinish_ok test feats classes s : gfinish w a test feats classes = Ok s ->
  exists n sc, build_gin a feats classes = Some (Ok n) /\ scheduler a = Ok sc /\ s = mkSession n sc test None.
Proof.
  unfold gfinish. intros H. apply bind_ok in H as (_ & _ & H).
  apply bind_ok in H as (n & H1 & H). apply bind_ok in H as (sc & H2 & H).
  exists n, sc. destruct (build_gin a feats classes) as [r|]; [|discriminate]. subst r.
  injection H as <-. auto.
Qed.
Lemma scheduler_ok sc : scheduler a = Ok sc -> In (a_sched a, sc) (schedule a).
Proof.
  unfold scheduler, schedule.
  repeat match goal with |- context [a_sched a =? ?x] =>
    destruct (String.eqb_spec (a_sched a) x) as [->|_]; [intros H; injection H as <-; cbn; auto|] end.
  discriminate.
Qed.

Ltac binds H :=
  repeat match type of H with
  | bind _ _ = Ok _ => let x := fresh "x" in let Hx := fresh "Hx" in apply bind_ok in H as (x & Hx & H)
  end.

Lemma build_ok d n : build_net w a d = Some (Ok n) ->
  In (a_model a) known_nets /\ ~ In (a_model a) graph_nets /\
  In (a_model a, n_class n) class_of /\
  (if in_dec string_dec (a_model a) ogb_nets then i_tasks d else i_classes d) = Some (n_out n) /\
  n_dim n = (if in_dec string_dec (a_model a)
               ["embed_sparse_cin_no_rings"; "embed_gin"; "edge_orient"; "edge_mpnn"] then 1 else i_max_dim d) /\
  (In (a_model a) cob_nets -> n_cob n = (lower (a_cob a) =? "true")) /\
  (In (a_model a) (embed_nets ++ ogb_nets)%list -> n_edge n = a_edge a).
Proof.
  unfold build_net, linear_out, attr, of_option. intros H.
  assert (D : In (a_model a) (plain_nets ++ embed_nets ++ ogb_nets)%list).
  { apply among_In. unfold among. cbn [plain_nets embed_nets ogb_nets app existsb].
    repeat match type of H with context [a_model a =? ?m] => destruct (a_model a =? m); [rewrite ?orb_true_r; reflexivity|] end.
    discriminate. }
  cbn in D.
  repeat (destruct D as [M|D];
    [symmetry in M; rewrite M in H |- *; cbn in H; injection H as H; binds H; injection H as <-;
     repeat match goal with Hx : match ?o with Some _ => _ | None => _ end = Ok _ |- _ =>
       destruct o eqn:?; [injection Hx as ->|discriminate] end;
     cbn [n_class n_out n_dim n_cob n_edge];
     repeat match goal with |- context [in_dec string_dec ?x ?l] =>
       let v := eval vm_compute in (if in_dec string_dec x l then true else false) in
       destruct (in_dec string_dec x l) as [Y|Y];
       [match v with true => idtac | false => exfalso; cbn in Y; intuition discriminate end
       |match v with false => idtac | true => exfalso; apply Y; cbn; intuition end]; clear Y end;
     repeat split; try assumption; try reflexivity; try (cbn; intuition discriminate); try (cbn; tauto)
    |]).
  destruct D.
Qed.

Lemma gin_ok feats classes n : build_gin a feats classes = Some (Ok n) ->
  In (a_model a) graph_nets /\ In (a_model a, n_class n) class_of /\ classes = Some (n_out n) /\
  n_dim n = 0 /\ n_in n = Some feats.
Proof.
  unfold build_gin, linear_out, of_option. intros H.
  assert (D : In (a_model a) graph_nets).
  { apply among_In. unfold among. cbn [graph_nets existsb].
    repeat match type of H with context [a_model a =? ?m] => destruct (a_model a =? m); [rewrite ?orb_true_r; reflexivity|] end.
    discriminate. }
  cbn in D.
  repeat (destruct D as [M|D];
    [symmetry in M; rewrite M in H |- *; cbn in H; injection H as H; binds H; injection H as <-;
     repeat match goal with Hx : match ?o with Some _ => _ | None => _ end = Ok _ |- _ =>
       destruct o eqn:?; [injection Hx as ->|discriminate] end;
     cbn [n_class n_out n_dim n_in]; repeat split; cbn; tauto
    |]).
  destruct D.
Qed.

(** The complexes a data set consists of, by family. *)
Definition classes_in (f : family) : option nat :=
  match f with
  | TU c _ => Some c | SR => Some 16 | CSL => Some 10 | Transfer => Some 5
  | Lookup => match a_ring a with Some k => Some (Z.to_nat (k - 1)) | None => Some 0 end
  | Zinc => Some 1 | Mol _ => None | Flow | Ocean | Toy _ => Some 2 | Pep _ => Some 1
  end.
Definition tasks_in (f : family) : option nat :=
  match f with Mol _ => Some (w_tasks w) | Pep t => Some t | _ => None end.

Lemma tu_ok c md fold init ring down d : tu_dataset c md fold init ring down = Ok d ->
  d = mkDs md (Some c) None None None false true true
        (match ring with Some k => Rings k down init true true | None => Cliques md down init end).
Proof.
  unfold tu_dataset. intros H. binds H. destruct ring as [k|]; binds H; injection H as <-; [|reflexivity].
  destruct (Nat.eqb_spec md 2); [subst; reflexivity|discriminate].
Qed.
Lemma sr_ok md ring init d : sr_dataset w md ring init = Ok d ->
  d = mkDs (match ring with Some _ => 2 | None => w_sr_dim w md end) (Some 16) None None None true false true
        (match ring with Some k => Rings k false init true true | None => Cliques md false init end).
Proof.
  unfold sr_dataset. intros H. binds H. destruct ring as [k|]; binds H; injection H as <-; reflexivity.
Qed.

Lemma data_ok_of f d : belongs (a_dataset a) f -> load_dataset w a = Ok d ->
  i_lift d = made_by a f /\ i_test d = tested f /\ i_max_dim d = top_dim w a f /\
  i_classes d = classes_in f /\ i_tasks d = tasks_in f.
Proof.
  intros [Hin|(-> & rest & E)] H.
  - remember (a_dataset a) as name eqn:En. symmetry in En. unfold load_dataset in H. rewrite En in H.
    cbn in Hin.
    repeat (destruct Hin as [Hin|Hin];
      [injection Hin as <- <-; cbn in H;
       try (apply tu_ok in H; subst d; cbn; auto; fail);
       unfold csl_dataset, zinc_dataset, ogb_dataset, pep_dataset, ringtransfer_dataset, ringlookup_dataset,
         flow_dataset, ocean_dataset, ring_size, of_option in H;
       unfold classes_in, tasks_in, made_by;
       destruct (a_ring a); binds H; try discriminate;
       repeat match goal with Hx : Ok _ = Ok _ |- _ => injection Hx as <- end;
       try (destruct (a_fold a); [|discriminate]; binds H);
       try (injection H as <-); cbn; auto; fail
      |]). destruct Hin.
  - unfold load_dataset in H. rewrite E in H.
    replace (startswith ("sr" ++ rest) "sr") with true in H by (destruct rest; reflexivity).
    apply sr_ok in H. subst d. cbn. unfold made_by. destruct (a_ring a); auto.
Qed.

Lemma graph_ok_of f t c : belongs (a_dataset a) f -> f <> SR -> load_graph_dataset w a = Ok (t, c) ->
  t = tested f /\ (forall o, In (a_model a) graph_nets -> c = Some o -> o = outputs w a f).
Proof.
  intros [Hin|(-> & _)] Hf H; [|congruence].
  remember (a_dataset a) as name eqn:En. symmetry in En. unfold load_graph_dataset in H. rewrite En in H.
  cbn in Hin.
  repeat (destruct Hin as [Hin|Hin];
    [injection Hin as <- <-; cbn in H; try discriminate;
     try (destruct (a_ring a) eqn:?; [|discriminate]); cbn [of_option bind] in H; binds H;
     injection H as <- <-; cbn [outputs tested]; (split; [reflexivity|]); intros o Hm Ho; injection Ho as <-;
     try (destruct (in_dec string_dec (a_model a) ogb_nets) as [Y|Y];
          [exfalso; cbn in Hm, Y; intuition congruence|];
          destruct (in_dec string_dec (a_model a) graph_nets); [|contradiction]);
     try reflexivity;
     repeat match goal with E : a_ring a = _ |- _ => rewrite E end; reflexivity
    |]). destruct Hin.
Qed.

Theorem session_ok f s : run_exp w a = Ok s -> belongs (a_dataset a) f ->
  In (a_model a, n_class (s_net s)) class_of /\
  n_out (s_net s) = outputs w a f /\
  n_dim (s_net s) = works_on w a f /\
  (In (a_model a) cob_nets -> n_cob (s_net s) = (lower (a_cob a) =? "true")) /\
  s_test s = tested f /\
  In (a_sched a, s_sched s) (schedule a) /\
  s_lift s = (if in_dec string_dec (a_model a) graph_nets then None else Some (made_by a f)).
Proof.
  intros H Hf. pose proof H as K. unfold run_exp in H. apply bind_ok in H as (u & Hv & H).
  assert (OK : ok (run_exp w a) = true) by (rewrite K; reflexivity).
  assert (Hm : In (a_model a) known_nets) by (apply (setup_known w); rewrite H; reflexivity).
  rewrite (run_family w a f Hf Hm) in OK. apply row_iff in OK. destruct OK as (Hnet & _).
  rewrite setup_split in H. apply bind_ok in H as (u1 & _ & H). clear u1.
  pose proof (gin_known _ Hm) as G. unfold starts_gin in G. rewrite G in H. unfold graphsb in H, G.
  unfold works_on.
  destruct (in_dec string_dec (a_model a) graph_nets) as [Y|Y].
  - rewrite (proj2 (among_In _ _) Y) in H. apply bind_ok in H as ([t c] & Hl & H).
    apply gfinish_ok in H as (n & sc & Hb & Hs & ->). cbn [s_net s_test s_sched s_lift].
    assert (Hf2 : f <> SR).
    { intros ->. cbn in Hnet, Y. intuition congruence. }
    assert (S : startswith (a_dataset a) "sr" = false).
    { destruct Hf as [Hin|(-> & _)]; [|congruence]. cbn in Hin.
      repeat (destruct Hin as [Hin|Hin]; [injection Hin as <- _; reflexivity|]). destruct Hin. }
    rewrite S in Hb. apply gin_ok in Hb as (_ & B1 & B2 & B3 & _).
    destruct (graph_ok_of f t c Hf Hf2 Hl) as (G1 & G2).
    split; [exact B1|]. split; [apply G2; assumption|]. split; [exact B3|]. split.
    + intros Hc. exfalso. cbn in Hc, Y. intuition congruence.
    + split; [exact G1|]. split; [now apply scheduler_ok|reflexivity].
  - destruct (among (a_model a) graph_nets) eqn:A; [exfalso; apply Y; now apply among_In|].
    apply bind_ok in H as (d & Hl & H). apply finish_ok in H as (n & sc & Hb & Hs & ->).
    cbn [s_net s_test s_sched s_lift].
    destruct (data_ok_of f d Hf Hl) as (D1 & D2 & D3 & D4 & D5).
    apply build_ok in Hb as (_ & _ & B1 & B2 & B3 & B4 & _).
    split; [exact B1|]. split.
    + rewrite D4, D5 in B2. unfold outputs, classes_in, tasks_in in *.
      destruct (in_dec string_dec (a_model a) ogb_nets) as [Z|Z].
      * destruct f; try discriminate; now injection B2.
      * destruct f; try discriminate; try (destruct (a_ring a)); try (now injection B2).
        all: destruct (in_dec string_dec (a_model a) graph_nets); [contradiction|now injection B2].
    + rewrite B3, D3. split; [reflexivity|]. split; [exact B4|]. split; [exact D2|].
      split; [now apply scheduler_ok|now rewrite D1].
Qed.
End Session.
