(** C65-C67: which experiments start, with what, and where their results go. *)
From Coq Require Import String Ascii List ZArith Lia Bool Decimal DecimalString DecimalZ.
From Verif Require Import Base LaunchModel LaunchSpec LaunchProofs LaunchFamilies LaunchSession.
Import ListNotations.
Open Scope string_scope.

(** ** C65 *)
Theorem C65_startable w a : (exists s, run_exp w a = Ok s) <-> startable w a.
Proof. apply run_startable. Qed.

(** A world in which nothing goes wrong, and the defaults of the parser (exp/parser.py:8-111) on
    the smallest TU data set. *)
Definition fine : world := mkWorld 7 7 3 (fun n => n) (Ok tt) (Ok tt) (fun _ => true).
Definition base : args :=
  mkArgs "PROTEINS" "sparse_cin" "classification" "accuracy" "StepLR" "bn" "relu" "sum" "sum" "sum"
    "False" "default" "default" None (Some 0%Z) None 2 5 64 43 "exp/results" "1700000000"
    false false false false false false true.
Definition with_data (a : args) (ds md : string) (ring : option Z) : args :=
  mkArgs ds md (a_task a) (a_metric a) (a_sched a) (a_norm a) (a_nonlin a) (a_readout a) (a_final a)
    (a_init a) (a_cob a) (a_train_orient a) (a_test_orient a) (a_jump a) (a_fold a) ring (a_max_dim a)
    (a_layers a) (a_emb a) (a_seed a) (a_result a) (a_exp a) (a_down a) (a_minimize a) (a_simple a)
    (a_untrained a) (a_edge a) (a_tune a) (a_drop0 a).
Definition with_down (a : args) (b : bool) : args :=
  mkArgs (a_dataset a) (a_model a) (a_task a) (a_metric a) (a_sched a) (a_norm a) (a_nonlin a) (a_readout a) (a_final a)
    (a_init a) (a_cob a) (a_train_orient a) (a_test_orient a) (a_jump a) (a_fold a) (a_ring a) (a_max_dim a)
    (a_layers a) (a_emb a) (a_seed a) (a_result a) (a_exp a) b (a_minimize a) (a_simple a)
    (a_untrained a) (a_edge a) (a_tune a) (a_drop0 a).
Definition with_fold_seed (a : args) (fold : option Z) (seed : Z) : args :=
  mkArgs (a_dataset a) (a_model a) (a_task a) (a_metric a) (a_sched a) (a_norm a) (a_nonlin a) (a_readout a) (a_final a)
    (a_init a) (a_cob a) (a_train_orient a) (a_test_orient a) (a_jump a) fold (a_ring a) (a_max_dim a)
    (a_layers a) (a_emb a) seed (a_result a) (a_exp a) (a_down a) (a_minimize a) (a_simple a)
    (a_untrained a) (a_edge a) (a_tune a) (a_drop0 a).
Definition with_policy (a : args) (task metric sched norm : string) (fold : option Z) (minimize : bool) : args :=
  mkArgs (a_dataset a) (a_model a) task metric sched norm (a_nonlin a) (a_readout a) (a_final a)
    (a_init a) (a_cob a) (a_train_orient a) (a_test_orient a) (a_jump a) fold (a_ring a) (a_max_dim a)
    (a_layers a) (a_emb a) (a_seed a) (a_result a) (a_exp a) (a_down a) minimize (a_simple a)
    (a_untrained a) (a_edge a) (a_tune a) (a_drop0 a).

Definition zinc_args : args :=
  with_policy (with_data base "ZINC" "embed_sparse_cin" (Some 18%Z)) "regression" "mae"
    "ReduceLROnPlateau" "bn" None true.
Definition mol_args : args :=
  with_policy (with_data base "MOLHIV" "ogb_embed_sparse_cin" (Some 6%Z)) "bin_classification"
    "ogbg-molhiv" "StepLR" "bn" None false.
Definition transfer_args (md norm : string) : args :=
  with_policy (with_data base "RING-TRANSFER" md (Some 10%Z)) "classification" "accuracy" "None" norm
    None false.

Example C65_ex_starts :
  startable fine base /\ startable fine zinc_args /\ startable fine mol_args /\
  startable fine (transfer_args "ring_sparse_cin" "id") /\
  ~ startable fine (with_data base "PROTEINS" "embed_gin" None).
Proof.
  rewrite <- !C65_startable. repeat split; try (eexists; vm_compute; reflexivity).
  intros (s & H). vm_compute in H. discriminate.
Qed.

(** [validate_args] lets through options with which no experiment can start: the graph network of
    the ring experiments on RING-TRANSFER, ZINC without a ring size, names that begin with ZINC or
    embed, folds that CSL does not have, and anything at all on the other data sets. *)
Theorem C65_validated_refuted :
  ~ (forall w a, validate_args a = Ok tt -> exists s, setup w a = Ok s) /\
  (let a := transfer_args "gin_ring" "bn" in
   validate_args a = Ok tt /\ setup fine a = Err TypeError) /\
  (let a := with_data zinc_args "ZINC" "embed_sparse_cin" None in
   validate_args a = Ok tt /\ setup fine a = Err TypeError) /\
  (let a := with_data zinc_args "ZINC-full" "embed_sparse_cin" (Some 18%Z) in
   validate_args a = Ok tt /\ setup fine a = Err NotImplementedError) /\
  (let a := with_data zinc_args "ZINC" "embed_cinpp" (Some 18%Z) in
   validate_args a = Ok tt /\ setup fine a = Err ValueError) /\
  (let a := with_policy (with_data base "CSL" "embed_sparse_cin" (Some 6%Z)) "classification" "accuracy"
              "ReduceLROnPlateau" "ln" (Some 7%Z) false in
   validate_args a = Ok tt /\ setup fine a = Err AssertionError) /\
  (let a := with_data base "CLUSTER" "sparse_cin" None in
   validate_args a = Ok tt /\ setup fine a = Err TypeError).
Proof.
  assert (T : validate_args (transfer_args "gin_ring" "bn") = Ok tt /\
              setup fine (transfer_args "gin_ring" "bn") = Err TypeError) by (split; vm_compute; reflexivity).
  split; [|repeat split; vm_compute; reflexivity].
  intros H. destruct T as [T1 T2]. destruct (H fine _ T1) as (s & E). congruence.
Qed.

(** CLUSTER can be run with no options whatever. *)
Theorem C65_cluster_refuted w a : a_dataset a = "CLUSTER" -> forall s, run_exp w a <> Ok s.
Proof.
  intros E s H. assert (S : startable w a) by (apply C65_startable; eauto).
  destruct S as (f & [Hin|(_ & rest & X)] & _); rewrite E in *; [|discriminate].
  cbn in Hin. repeat (destruct Hin as [Hin|Hin]; [discriminate|]). destruct Hin.
Qed.

(** ** C66 *)
Theorem C66_session w a f s : run_exp w a = Ok s -> belongs (a_dataset a) f ->
  In (a_model a, n_class (s_net s)) class_of /\
  n_out (s_net s) = outputs w a f /\
  n_dim (s_net s) = works_on w a f /\
  (In (a_model a) cob_nets -> n_cob (s_net s) = true <-> spells (a_cob a) "true") /\
  s_test s = tested f /\
  In (a_sched a, s_sched s) (schedule a) /\
  s_lift s = (if in_dec string_dec (a_model a) graph_nets then None else Some (made_by a f)).
Proof.
  intros H B. destruct (session_ok w a f s H B) as (H1 & H2 & H3 & H4 & H5). repeat (split; [assumption|]).
  split; [|exact H5]. intros Hm. rewrite (H4 Hm), String.eqb_eq. apply lower_spells. cbn. lia.
Qed.

Example C66_ex :
  run_exp fine zinc_args =
    Ok (mkSession (mkNet "EmbedSparseCIN" None 1 2 false false) (Some "min") true
         (Some (Rings 18 false "sum" false false))) /\
  run_exp fine base =
    Ok (mkSession (mkNet "SparseCIN" (Some 7) 2 2 false false) (Some "step") false
         (Some (Cliques 2 false "sum"))) /\
  belongs "ZINC" Zinc /\ belongs "PROTEINS" (TU 2 true).
Proof. repeat split; try (vm_compute; reflexivity); left; cbn; tauto. Qed.

(** Every data set has one family. *)
Theorem C66_one_family name f g : belongs name f -> belongs name g -> f = g.
Proof.
  intros [Hf|(-> & rest & ->)] [Hg|(-> & rest' & E)]; [| | |reflexivity].
  - cbn in Hf, Hg.
    repeat (destruct Hf as [Hf|Hf];
      [injection Hf as <- <-;
       repeat (destruct Hg as [Hg|Hg]; [try discriminate; now injection Hg as <-|]); destruct Hg|]). destruct Hf.
  - subst name. cbn in Hf. repeat (destruct Hf as [Hf|Hf]; [discriminate|]). destruct Hf.
  - cbn in Hg. repeat (destruct Hg as [Hg|Hg]; [discriminate|]). destruct Hg.
Qed.

(** --include_down_adj is dropped without a word by some data sets; a CIN++ network, which exists for
    the lower messages, then runs on complexes that have none. *)
Theorem C66_lower_adjacency_refuted :
  ~ (forall w a s k d i e h, run_exp w a = Ok s -> s_lift s = Some (Rings k d i e h) -> d = a_down a) /\
  (forall w a s k d i e h name c, In (name, TU c false) catalogue -> a_dataset a = name ->
     run_exp w a = Ok s -> s_lift s = Some (Rings k d i e h) -> d = false) /\
  (let a := with_down (with_data base "REDDITBINARY" "cin++" (Some 6%Z)) true in
   run_exp fine a = run_exp fine (with_down a false) /\
   exists s, run_exp fine a = Ok s /\ n_class (s_net s) = "CINpp").
Proof.
  assert (W : exists s, run_exp fine (with_down (with_data base "REDDITBINARY" "cin++" (Some 6%Z)) true) = Ok s /\
    n_class (s_net s) = "CINpp" /\ s_lift s = Some (Rings 6 false "sum" true true))
    by (eexists; vm_compute; repeat split; reflexivity).
  destruct W as (s & E1 & E2 & E3). split; [|split].
  - intros H. specialize (H _ _ _ _ _ _ _ _ E1 E3). vm_compute in H. discriminate.
  - intros w a s0 k d i e h name c Hin En Hr Hl.
    destruct (C66_session w a (TU c false) s0 Hr) as (_ & _ & _ & _ & _ & _ & L); [left; now rewrite En|].
    rewrite Hl in L. destruct (in_dec string_dec (a_model a) graph_nets); [discriminate|].
    cbn [made_by] in L. destruct (a_ring a); [now injection L|discriminate].
  - split; [vm_compute; reflexivity|]. exists s. auto.
Qed.

(** The peptides have 10 and 11 tasks, but networks not made for ogb give one number per molecule. *)
Theorem C66_tasks_refuted w a s : run_exp w a = Ok s -> a_dataset a = "PEPTIDES-F" ->
  ~ In (a_model a) ogb_nets -> n_out (s_net s) <> 10.
Proof.
  intros H E Hm. assert (B : belongs (a_dataset a) (Pep 10)) by (rewrite E; left; cbn; auto 40).
  destruct (C66_session w a (Pep 10) s H B) as (_ & O & _). rewrite O. cbn [outputs].
  destruct (in_dec string_dec (a_model a) ogb_nets); [contradiction|].
  destruct (in_dec string_dec (a_model a) graph_nets); discriminate.
Qed.
Example C66_tasks_ex :
  exists s, run_exp fine (with_data base "PEPTIDES-F" "sparse_cin" (Some 8%Z)) = Ok s /\ n_out (s_net s) = 1.
Proof. eexists. vm_compute. split; reflexivity. Qed.

(** ** C67 *)
Lemma show_inj z z' : show z = show z' -> z = z'.
Proof.
  unfold show. intros H. rewrite <- (DecimalZ.of_to z), <- (DecimalZ.of_to z'). f_equal.
  apply (f_equal NilEmpty.int_of_string) in H.
  rewrite !NilEmpty.isi in H. now injection H.
Qed.

Fixpoint no_slash (s : string) : Prop :=
  match s with EmptyString => True | String c s' => c <> "/"%char /\ no_slash s' end.
Lemma no_slash_app s t : no_slash s -> no_slash t -> no_slash (s ++ t).
Proof. induction s; cbn; tauto. Qed.
Lemma uint_no_slash d : no_slash (NilEmpty.string_of_uint d).
Proof. induction d; cbn; repeat split; try assumption; discriminate. Qed.
Lemma show_no_slash z : no_slash (show z).
Proof.
  unfold show. destruct (Z.to_int z); cbn; [apply uint_no_slash|]. split; [discriminate|apply uint_no_slash].
Qed.
Lemma get_last p s : s <> "" ->
  String.get (String.length (p ++ s) - 1) (p ++ s) = String.get (String.length s - 1) s.
Proof.
  intros Hs. induction p as [|c p IH]; [reflexivity|]. cbn [append String.length].
  assert (L : String.length (p ++ s) <> 0).
  { destruct p; cbn; [|discriminate]. destruct s; [congruence|discriminate]. }
  destruct (String.length (p ++ s)) as [|n] eqn:E; [congruence|].
  cbn [Nat.sub String.get] in *. rewrite <- IH. now rewrite Nat.sub_0_r.
Qed.
Lemma no_slash_get s : no_slash s -> forall n c, String.get n s = Some c -> c <> "/"%char.
Proof.
  induction s as [|d s IH]; intros H n c E; [destruct n; discriminate|].
  destruct H as [H1 H2]. destruct n; cbn in E; [injection E as <-; exact H1|eauto].
Qed.
Lemma ends_no_slash p s : s <> "" -> no_slash s -> ends_with_slash (p ++ s) = false.
Proof.
  intros Hs Hn. unfold ends_with_slash. rewrite (get_last p s Hs).
  destruct (String.get (String.length s - 1) s) as [c|] eqn:E; [|reflexivity].
  apply (no_slash_get s Hn) in E. now apply Ascii.eqb_neq.
Qed.
Lemma append_inv p s t : p ++ s = p ++ t -> s = t.
Proof. induction p; cbn; intros H; [exact H|]. injection H. auto. Qed.
Lemma append_assoc p s t : (p ++ s) ++ t = p ++ s ++ t.
Proof. induction p as [|c p IH]; cbn; [reflexivity|]. now rewrite IH. Qed.
Lemma cut x : forall x' y y', no_slash x -> no_slash x' ->
  (y = "" \/ exists r, y = String "/" r) -> (y' = "" \/ exists r, y' = String "/" r) ->
  x ++ y = x' ++ y' -> x = x' /\ y = y'.
Proof.
  induction x as [|c x IH]; intros [|c' x'] y y' Hx Hx' Hy Hy' E; cbn in *.
  - auto.
  - subst y. destruct Hy as [Hy|(r & Hy)]; [discriminate|]. injection Hy as -> _. tauto.
  - subst y'. destruct Hy' as [Hz|(r & Hz)]; [discriminate|]. injection Hz as -> _. tauto.
  - injection E as -> E. destruct (IH x' y y') as [-> ->]; tauto.
Qed.

Definition stem (p : string) : string :=
  if (p =? "") || ends_with_slash p then p else p ++ "/".
Lemma join_stem p c s : c <> "/"%char -> path_join p (String c s) = stem p ++ String c s.
Proof.
  intros H. unfold path_join, stem, startswith. cbn [prefix].
  destruct (ascii_dec "/" c) as [E|E]; [congruence|].
  destruct ((p =? "") || ends_with_slash p); [reflexivity|]. now rewrite append_assoc.
Qed.
Definition folder_stem (a : args) : string :=
  stem (path_join (a_result a) (a_dataset a ++ "-" ++ a_exp a)).
Lemma folder_form a :
  result_folder a = folder_stem a ++ "seed-" ++ show (a_seed a) ++
    match a_fold a with None => "" | Some f => "/fold-" ++ show f end.
Proof.
  unfold result_folder. cbn [append]. rewrite join_stem by discriminate.
  change (stem (path_join (a_result a) (a_dataset a ++ String "-" (a_exp a)))) with (folder_stem a).
  destruct (a_fold a) as [f|].
  - rewrite join_stem by discriminate. unfold stem at 1.
    rewrite (ends_no_slash (folder_stem a)); [|discriminate|repeat split; try discriminate; apply show_no_slash].
    rewrite orb_false_r.
    match goal with |- context [?s =? ""] => destruct (String.eqb_spec s "") as [X|_] end.
    + destruct (folder_stem a); discriminate.
    + rewrite !append_assoc. reflexivity.
  - f_equal. cbn [append]. do 5 f_equal. clear. induction (show (a_seed a)) as [|c s IH]; [reflexivity|].
    cbn. now rewrite <- IH.
Qed.

(** For one data set and experiment name, runs with different seeds or folds write to different
    folders (so the scripts that collect results over seeds and folds read what each run wrote). *)
Theorem C67_folder a b :
  a_result a = a_result b -> a_dataset a = a_dataset b -> a_exp a = a_exp b ->
  result_folder a = result_folder b -> a_seed a = a_seed b /\ a_fold a = a_fold b.
Proof.
  intros H1 H2 H3. rewrite !folder_form. unfold folder_stem. rewrite H1, H2, H3. intros E.
  apply append_inv in E. apply (append_inv "seed-") in E.
  apply cut in E; try apply show_no_slash;
    try (match goal with |- context [match ?o with _ => _ end] => destruct o; cbn; eauto end).
  destruct E as [E1 E2]. split; [now apply show_inj|].
  destruct (a_fold a), (a_fold b); try discriminate; [|reflexivity].
  f_equal. apply show_inj. now apply (append_inv "/fold-").
Qed.
Example C67_ex :
  result_folder base = "exp/results/PROTEINS-1700000000/seed-43/fold-0" /\
  result_folder (with_fold_seed base None (-1)) = "exp/results/PROTEINS-1700000000/seed--1".
Proof. split; vm_compute; reflexivity. Qed.

(** Data sets and experiment names are joined by a character both may contain, and nothing else of the
    options enters: a run on ZINC called FULL-a overwrites one on ZINC-FULL called a, and any two
    networks overwrite each other under one name. *)
Definition named (ds md exp : string) : args :=
  mkArgs ds md "regression" "mae" "ReduceLROnPlateau" "bn" "relu" "sum" "sum" "sum"
    "False" "default" "default" None None (Some 18%Z) 2 5 64 43 "exp/results" exp
    false true false false false false true.
Theorem C67_folder_refuted :
  ~ (forall a b, a_result a = a_result b -> result_folder a = result_folder b -> a_dataset a = a_dataset b) /\
  ~ (forall a b, result_folder a = result_folder b -> a_model a = a_model b) /\
  (exists s t, run_exp fine (named "ZINC" "embed_gin" "FULL-a") = Ok s /\
     run_exp fine (named "ZINC-FULL" "embed_sparse_cin" "a") = Ok t).
Proof.
  split; [|split].
  - intros H. specialize (H (named "ZINC" "embed_gin" "FULL-a") (named "ZINC-FULL" "embed_sparse_cin" "a") eq_refl eq_refl).
    discriminate.
  - intros H. specialize (H (named "ZINC" "embed_gin" "a") (named "ZINC" "embed_sparse_cin" "a") eq_refl). discriminate.
  - do 2 eexists. split; vm_compute; reflexivity.
Qed.

Print Assumptions C65_startable.
Print Assumptions C65_validated_refuted.
Print Assumptions C65_cluster_refuted.
Print Assumptions C66_session.
Print Assumptions C66_one_family.
Print Assumptions C66_lower_adjacency_refuted.
Print Assumptions C66_tasks_refuted.
Print Assumptions C67_folder.
Print Assumptions C67_folder_refuted.
