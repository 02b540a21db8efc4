(** C90: graph baselines and cellular networks see the same TU graphs, classes and folds. *)
From Coq Require Import String List Arith Lia ZArith QArith Bool Permutation.
From Verif Require Import Base ScatterModel ScatterSpec ScatterProofs ComplexModel BatchSpec BatchSpec2 BatchProofs
  MPModel MPSpec MPProofs MPForward MPNets MPProps MPIso
  LiftModel LiftSpec LiftBase LiftClique LiftCliqueProps LiftProps LiftRing LiftRingProps LiftRingExamples LiftIso LiftInvariance
  LiftDataset DatasetModel DatasetSpec DatasetProofs DatasetProps ExpModel InferModel InferProps SelfIsoProofs SelfIsoProps MolModel MolProofs
  TUModel TUSpec TUProofs TUProps PermLift.
From Verif Require Import TUPipeModel TUPipeSpec TUPipeProofs TUPipeProps.
From Verif Require Import TUBaseModel.
Import ListNotations.
Open Scope nat_scope.
Open Scope list_scope.

(** ** The file of pickled graphs *)
Definition fresh (order : list nat -> list nat) (file : list line) (c : call) :=
  tu_graphs order (a_degree c) file (a_files c) (a_assign c) (a_fold c).
Lemma calls_ok order file : forall cs s,
  (forall b gs, s b = Some gs -> exists data, load_data order b file = Ok data /\ gs = map to_pyg (fst data)) ->
  fst (tu_calls order file s cs) = map (fresh order file) cs.
Proof.
  induction cs as [|c cs IH]; intros s Hs; [reflexivity|]. cbn [tu_calls map].
  assert (G : exists s1, tu_graphs_cached order file s (a_degree c) (a_files c) (a_assign c) (a_fold c) = (fresh order file c, s1) /\
    forall b gs, s1 b = Some gs -> exists data, load_data order b file = Ok data /\ gs = map to_pyg (fst data)).
  { unfold tu_graphs_cached, fresh, tu_graphs. destruct (s (a_degree c)) as [gs|] eqn:E.
    - destruct (Hs _ _ E) as (data & Ed & ->). rewrite Ed. exists s. split; [reflexivity|exact Hs].
    - destruct (load_data order (a_degree c) file) as [data|e] eqn:Ed; [|exists s; split; [reflexivity|exact Hs]].
      eexists. split; [reflexivity|]. intros b gs. unfold put. destruct (Bool.eqb (a_degree c) b) eqn:Eb; [|apply Hs].
      apply Bool.eqb_prop in Eb. subst b. intros H. inversion H. exists data. auto. }
  destruct G as (s1 & -> & H1). specialize (IH s1 H1). destruct (tu_calls order file s1 cs) as [rs s2]. cbn [fst] in *. congruence.
Qed.
(** Any calls, starting without files, return what they would return alone. *)
Theorem C90_files : forall order file cs,
  fst (tu_calls order file (fun _ => None) cs) =
  map (fun c => tu_graphs order (a_degree c) file (a_files c) (a_assign c) (a_fold c)) cs.
Proof. intros order file cs. apply calls_ok. discriminate. Qed.

(** ** The same folds *)
Lemma items gs : mapM graph_item (map to_pyg gs) = Ok (map u_label gs).
Proof. induction gs as [|g gs IH]; [reflexivity|]. cbn [map mapM]. rewrite IH. reflexivity. Qed.
Lemma tu_graphs_ok order degree file gs classes files assign fold : load_data order degree file = Ok (gs, classes) ->
  tu_graphs order degree file files assign fold =
  match files with
  | Some p => Ok (map to_pyg gs, p)
  | None => let* ids := get_fold_indices assign (map u_label gs) fold in Ok (map to_pyg gs, ids)
  end.
Proof.
  intros E. unfold tu_graphs, tu_parts. rewrite E. cbn [bind fst]. destruct files as [p|]; [reflexivity|]. rewrite items. reflexivity.
Qed.

Section Same.
Context {V : Type} (o : ops V) (Ho : ops_ok o) (veqb : V -> V -> bool) (veqb_ok : forall a b, veqb a b = true <-> a = b) (row : list Z -> V) (width : V -> nat).
Variables (lib : list (list nat) -> simplex_tree) (isos : list (nat * nat) -> nat -> list (list nat)) (so : list (list nat) -> list (list nat)).
Variables (order : list nat -> list nat) (r : reduce) (down : bool) (ring : option nat) (md : nat) (m : net V).

(** The two loaders agree: both succeed with the same parts, and complex [i] is the lifting of graph [i]; or both raise the same. *)
Definition agree (ds : list doc) (a : result (list pyg * (list nat * list nat))) (b : result (dataset V)) : Prop :=
  match a, b with
  | Ok (gs, (train, val)), Ok data =>
      length gs = length ds /\ d_train data = Some train /\ d_val data = Some val /\ d_test data = None /\
      (exists cls classes, numbered (map d_label ds) cls classes /\ map p_y gs = map (fun c => [c]) cls) /\
      exists ks co, Forall2 (fun g K => lift_one o veqb lib isos so ring r md down (pyg_graph row g) = Ok K) gs ks /\
        collate ks md = Ok co /\ d_data data = Some co
  | Err e, Err e' => e = e'
  | _, _ => False
  end.

(** A splitter that gives fold 0 to one list of classes and fold 1 to all others. *)
Definition spot (cls labels : list nat) : result (list nat) :=
  Ok (repeat (if list_eq_dec Nat.eq_dec labels cls then 0 else 1) (length labels)).
Lemma spot_ok cls labels : exists folds, spot cls labels = Ok folds /\ fold_numbers labels folds.
Proof.
  eexists. split; [reflexivity|]. split; [apply repeat_length|]. apply Forall_forall. intros x Hx. apply repeat_spec in Hx. subst x.
  destruct (list_eq_dec Nat.eq_dec labels cls); lia.
Qed.
Lemma spot_off cls labels : labels <> cls -> exists train, get_fold_indices (spot cls) labels 0 = Ok (train, []).
Proof.
  intros N. destruct (get_fold_ok (spot cls) labels (repeat 1 (length labels)) 0%Z) as [E1 E2].
  - unfold spot. destruct (list_eq_dec Nat.eq_dec labels cls); [congruence|reflexivity].
  - lia.
  - rewrite E1, E2. eexists. f_equal. f_equal. cbn [Z.to_nat].
    assert (G : forall s k, map fst (filter (fun p : nat * nat => snd p =? 0) (combine (seq s k) (repeat 1 k))) = []).
    { intros s k. revert s. induction k as [|k IH]; intros s; [reflexivity|]. cbn. apply IH. }
    rewrite repeat_length. apply G.
Qed.

Lemma agree_core ds degree file gs classes k code : load_data order degree file = Ok (gs, classes) ->
  length gs = length ds -> numbered (map d_label ds) (map u_label gs) classes -> ds <> [] ->
  (exists data, tu_dataset o veqb width lib isos so row order degree file ring r md down None (spot (map u_label gs)) 0 = Ok data /\
     faithful o veqb row r down ring md m None (spot (map u_label gs)) 0%Z ds (map u_label gs) k code data) ->
  forall files assign fold, agree ds (tu_graphs order degree file files assign fold)
    (tu_dataset o veqb width lib isos so row order degree file ring r md down files assign fold).
Proof.
  intros EL HL HN Hne (data & E & F) files assign fold. rewrite (tu_graphs_ok _ _ _ _ _ files assign fold EL).
  unfold tu_dataset in E |- *.
  apply bind_ok in E as (u1 & E1 & E). apply bind_ok in E as (u2 & E2 & E). rewrite E1, E2, EL in *. cbn [bind fst] in *.
  apply bind_ok in E as ([[ks dim] nf] & EC & E). rewrite EC. cbn [bind fst] in *.
  apply bind_ok in E as (co & Eco & E). rewrite Eco. cbn [bind].
  assert (HK : Forall2 (fun g K => lift_one o veqb lib isos so ring r md down (pyg_graph row g) = Ok K) (map to_pyg gs) ks).
  { assert (HK' : Forall2 (fun g K => lift_one o veqb lib isos so ring r md down g = Ok K) (map (fun g => pyg_graph row (to_pyg g)) gs) ks).
    { unfold tu_convert in EC. destruct ring as [mr|].
      - apply C22_rings_order in EC; [|exact veqb_ok]. destruct EC as (G & _). 
        assert (A : Forall (fun g : LiftModel.graph V => LiftModel.g_attr g = None) (map (fun g => pyg_graph row (to_pyg g)) gs))
          by (apply Forall_forall; intros g Hg; apply in_map_iff in Hg as (t & <- & _); reflexivity).
        clear - G A. induction G as [|g K l l' H G IH]; constructor.
        + inversion A; subst. unfold lift_one. rewrite <- H. f_equal. auto.
        + apply IH. now inversion A.
      - apply C22_gudhi_order in EC as (G & _). exact G. }
    clear - HK'. revert ks HK'. induction gs as [|g gs IH]; intros ks H; inversion H; subst; constructor; auto. }
  assert (HP : exists cls classes, numbered (map d_label ds) cls classes /\ map p_y (map to_pyg gs) = map (fun c => [c]) cls).
  { exists (map u_label gs), classes. split; [exact HN|]. rewrite !map_map. reflexivity. }
  assert (HG : length (map to_pyg gs) = length ds) by (rewrite map_length; exact HL).
  destruct files as [[train val]|].
  { cbn [agree]. cbn [d_train d_val d_test d_data]. split; [exact HG|]. do 3 (split; [reflexivity|]). split; [exact HP|]. exists ks, co. auto. }
  apply bind_ok in E as (n & En & E). rewrite En. cbn [bind].
  destruct (ds_gets (mkDataset md (Some co) None None None None None) (seq 0 n)) as [ks' ds1].
  apply bind_ok in E as (ks2 & Ek & E). rewrite Ek. cbn [bind].
  apply bind_ok in E as (labels & El & E). rewrite El. cbn [bind].
  apply bind_ok in E as (ids & Ei & E). inversion E; subst data; clear E.
  assert (HLab : labels = map u_label gs).
  { destruct (list_eq_dec Nat.eq_dec labels (map u_label gs)) as [|Hn]; [assumption|exfalso].
    destruct (spot_off _ _ Hn) as (train & Es). rewrite Es in Ei. inversion Ei; subst ids.
    destruct (fa_parts _ _ _ _ _ _ _ _ _ _ _ _ _ _ _ _ F) as (tr & va & _ & Iv & _ & Hv). cbn in Iv. inversion Iv; subst va.
    assert (Hc : length (map u_label gs) = length ds) by (rewrite map_length; exact HL).
    specialize (Hv (repeat 0 (length (map u_label gs)))).
    assert (Hs : spot (map u_label gs) (map u_label gs) = Ok (repeat 0 (length (map u_label gs)))).
    { unfold spot. destruct (list_eq_dec Nat.eq_dec (map u_label gs) (map u_label gs)); [reflexivity|congruence]. }
    destruct (proj2 (Hv Hs 0)). rewrite Hc. destruct ds; [congruence|]. reflexivity. }
  subst labels. destruct (get_fold_indices assign (map u_label gs) fold) as [[train val]|e]; cbn [bind agree fst snd d_train d_val d_test d_data]; [|reflexivity].
  split; [exact HG|]. do 3 (split; [reflexivity|]). split; [exact HP|]. exists ks, co. auto.
Qed.

Lemma arguments_spot ds files assign fold cls : arguments o row width lib isos so order ring md m files assign fold ds ->
  arguments o row width lib isos so order ring md m None (spot cls) 0%Z ds.
Proof. intros [A1 A2 A3 A4 A5 A6 A7 A8 A9 A10 A11 A12]. constructor; auto. split; [lia|]. intros. apply spot_ok. Qed.

(** With the tags of the file as features. *)
Theorem C90_tags ds rest : arguments o row width lib isos so order ring md m (Some ([], [])) (fun _ => Ok []) 0%Z ds ->
  forall files assign fold, agree ds (tu_graphs order false (file_lines ds ++ rest) files assign fold)
    (tu_dataset o veqb width lib isos so row order false (file_lines ds ++ rest) ring r md down files assign fold).
Proof.
  intros HA. destruct (C42_load_data_partial ds order rest (ar_docs _ _ _ _ _ _ _ _ _ _ _ _ _ _ HA) (ar_order _ _ _ _ _ _ _ _ _ _ _ _ _ _ HA)) as (gs & classes & tags & column & EL & HS & NL & _).
  pose proof (arguments_spot _ _ _ _ (map u_label gs) HA) as HA'.
  destruct (C81_tags o Ho veqb veqb_ok row width lib isos so order r down ring md m None (spot (map u_label gs)) 0%Z ds rest HA') as (data & cls & cl & k & code & E & HN & _ & F).
  rewrite (numbered_unique _ _ _ _ _ HN NL) in F.
  apply (agree_core ds false (file_lines ds ++ rest) gs classes k code EL); eauto.
  - symmetry. apply (Forall2_length HS).
  - apply (ar_some _ _ _ _ _ _ _ _ _ _ _ _ _ _ HA).
Qed.
(** With the degrees as features. *)
Theorem C90_degrees ds rest : arguments o row width lib isos so order ring md m (Some ([], [])) (fun _ => Ok []) 0%Z ds ->
  Forall (fun d => exists v, linked d (length (d_nodes d) - 1) v) ds ->
  forall files assign fold, agree ds (tu_graphs order true (file_lines ds ++ rest) files assign fold)
    (tu_dataset o veqb width lib isos so row order true (file_lines ds ++ rest) ring r md down files assign fold).
Proof.
  intros HA Hlast. destruct (C42_degree_as_tag_partial ds order rest (ar_some _ _ _ _ _ _ _ _ _ _ _ _ _ _ HA) (ar_docs _ _ _ _ _ _ _ _ _ _ _ _ _ _ HA) Hlast (ar_order _ _ _ _ _ _ _ _ _ _ _ _ _ _ HA)) as (gs & classes & columns & column & EL & HS & NL & _).
  pose proof (arguments_spot _ _ _ _ (map u_label gs) HA) as HA'.
  destruct (C81_degrees o Ho veqb veqb_ok row width lib isos so order r down ring md m None (spot (map u_label gs)) 0%Z ds rest HA' Hlast) as (data & cls & cl & k & code & E & HN & _ & F).
  rewrite (numbered_unique _ _ _ _ _ HN NL) in F.
  apply (agree_core ds true (file_lines ds ++ rest) gs classes k code EL); eauto.
  - symmetry. apply (Forall2_length HS).
  - apply (ar_some _ _ _ _ _ _ _ _ _ _ _ _ _ _ HA).
Qed.
End Same.

(** ** Examples *)
Lemma base_arguments_ok : arguments Zops binary one (any_lib true) all_isos (@rev _) (@List.rev nat) (Some 6) 2 ex_net (Some ([], [])) (fun _ => Ok []) 0%Z trio_docs.
Proof.
  destruct ring_arguments_ok as [A1 A2 A3 A4 A5 A6 A7 A8 A9 A10 A11 A12]. constructor; auto. intros i [].
Qed.
Example C90_example := C90_tags Zops Zops_ok Z.eqb Zeqb_ok binary one (any_lib true) all_isos (@rev _) (@List.rev nat) RMean true (Some 6) 2 ex_net
  trio_docs [[TFloat]] base_arguments_ok.
Example C90_degrees_example := C90_degrees Zops Zops_ok Z.eqb Zeqb_ok binary one (any_lib true) all_isos (@rev _) (@List.rev nat) RMean true (Some 6) 2 ex_net
  trio_docs [] base_arguments_ok trio_last.
Example C90_computed : exists gs, tu_graphs (@List.rev nat) false (file_lines trio_docs) None turn_by 1%Z = Ok (gs, ([0; 2], [1])) /\
  map p_y gs = [[0]; [1]; [0]].
Proof. eexists. split; vm_compute; reflexivity. Qed.
Print Assumptions C90_files.
Print Assumptions C90_tags.
Print Assumptions C90_degrees.
