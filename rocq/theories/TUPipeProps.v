(** C81: TU data sets from the text file to the predictions. *)
From Coq Require Import String List Arith Lia ZArith QArith Bool Permutation.
From Verif Require Import Base ScatterModel ScatterSpec ScatterProofs ComplexModel BatchSpec BatchSpec2 BatchProofs
  MPModel MPSpec MPProofs MPForward MPNets MPProps MPIso
  LiftModel LiftSpec LiftBase LiftClique LiftCliqueProps LiftProps LiftRing LiftRingProps LiftRingExamples LiftIso LiftInvariance
  LiftDataset DatasetModel DatasetSpec DatasetProofs DatasetProps ExpModel InferModel InferProps SelfIsoProofs SelfIsoProps MolModel MolProofs
  TUModel TUSpec TUProofs TUProps PermLift.
From Verif Require Import TUPipeModel TUPipeSpec TUPipeProofs.
Import ListNotations.
Open Scope nat_scope.
Open Scope list_scope.

(** ** Degrees *)
Definition linkedb (d : doc) (u v : nat) : bool :=
  let at_ a b := match nth_error (d_nodes d) a with Some nd => existsb (Nat.eqb b) (n_nbrs nd) | None => false end in at_ u v || at_ v u.
Lemma linkedb_ok d u v : linkedb d u v = true <-> linked d u v.
Proof.
  assert (G : forall a b, match nth_error (d_nodes d) a with Some nd => existsb (Nat.eqb b) (n_nbrs nd) | None => false end = true <-> mentions d a b).
  { intros a b. split.
    - destruct (nth_error (d_nodes d) a) as [nd|] eqn:E; [|discriminate]. intros H. apply existsb_exists in H as (x & Hx & Hb). apply Nat.eqb_eq in Hb. subst x. exists nd. auto.
    - intros (nd & -> & H). apply existsb_exists. exists b. split; auto. apply Nat.eqb_refl. }
  unfold linkedb, linked. rewrite orb_true_iff, !G. tauto.
Qed.
Definition degree_in (d : doc) (v : nat) : nat :=
  let nb := filter (linkedb d v) (seq 0 (length (d_nodes d))) in length nb + (if linkedb d v v then 1 else 0).
Lemma degree_in_ok d v : doc_ok d -> degree_is d v (degree_in d v).
Proof.
  intros HD. exists (filter (linkedb d v) (seq 0 (length (d_nodes d)))). split; [apply NoDup_filter, seq_NoDup|]. split.
  - intros w. rewrite filter_In, linkedb_ok, in_seq. split; [tauto|]. intros H. split; auto. apply (linked_lt d v w HD) in H. lia.
  - unfold degree_in. destruct (linkedb d v v) eqn:E.
    + left. split; [apply linkedb_ok; auto|lia].
    + right. split; [intros H; apply linkedb_ok in H; congruence|lia].
Qed.
Lemma degree_unique d v a b : degree_is d v a -> degree_is d v b -> a = b.
Proof.
  intros (l & N & H & C) (l' & N' & H' & C'). assert (P : Permutation l l') by (apply NoDup_Permutation; auto; intros x; rewrite H, H'; tauto).
  apply Permutation_length in P. intuition lia.
Qed.

(** Positions in concatenated lists. *)
Lemma concat_pos {A B} : forall (ls : list (list A)) (ls' : list (list B)) i u l a, Forall2 (fun l l' => length l = length l') ls ls' ->
  nth_error ls i = Some l -> nth_error l u = Some a ->
  exists p l', nth_error ls' i = Some l' /\ nth_error (List.concat ls) p = Some a /\ nth_error (List.concat ls') p = nth_error l' u.
Proof.
  intros ls ls' i u l a F. revert i. induction F as [|x x' ls ls' E F IH]; intros i Hi Hu; [destruct i; discriminate|].
  assert (u < length l) by (apply nth_error_Some; congruence). destruct i as [|i]; cbn [nth_error concat] in *.
  - inversion Hi; subst. exists u, x'. split; auto. rewrite !nth_error_app1 by lia. auto.
  - destruct (IH i Hi Hu) as (p & l' & H1 & H2 & H3). exists (length x + p), l'. split; auto.
    rewrite !nth_error_app2 by lia. rewrite <- E. replace (length x + p - length x) with p by lia. auto.
Qed.

(** The numbering by first appearance is determined. *)
Lemma numbered_unique raw num num' k k' : numbered raw num k -> numbered raw num' k' -> num = num'.
Proof.
  intros N N'. apply nth_error_ext_local. intros i. induction i as [i IH] using (well_founded_induction Wf_nat.lt_wf).
  pose proof (nb_len _ _ _ N) as L. pose proof (nb_len _ _ _ N') as L'.
  destruct (nth_error raw i) as [a|] eqn:Ea.
  2: { apply nth_error_None in Ea. rewrite (proj2 (nth_error_None num i)), (proj2 (nth_error_None num' i)) by lia. reflexivity. }
  assert (Hi : i < length raw) by (apply nth_error_Some; congruence).
  destruct (nth_error num i) as [x|] eqn:Ex; [|apply nth_error_None in Ex; lia]. destruct (nth_error num' i) as [y|] eqn:Ey; [|apply nth_error_None in Ey; lia].
  f_equal. destruct (Nat.lt_trichotomy x y) as [H|[H|H]]; auto; exfalso.
  - destruct (nb_first _ _ _ N' i y x Ey H) as (j & Hj & Ej). rewrite <- (IH j Hj) in Ej. destruct (nth_error raw j) as [b|] eqn:Eb; [|apply nth_error_None in Eb; lia].
    pose proof (proj2 (nb_inj _ _ _ N i j a b x x Ea Eb Ex Ej) eq_refl) as Hab. rewrite (IH j Hj) in Ej.
    pose proof (proj1 (nb_inj _ _ _ N' i j a b y x Ea Eb Ey Ej) Hab). lia.
  - destruct (nb_first _ _ _ N i x y Ex H) as (j & Hj & Ej). rewrite (IH j Hj) in Ej. destruct (nth_error raw j) as [b|] eqn:Eb; [|apply nth_error_None in Eb; lia].
    pose proof (proj2 (nb_inj _ _ _ N' i j a b y y Ea Eb Ey Ej) eq_refl) as Hab. rewrite <- (IH j Hj) in Ej.
    pose proof (proj1 (nb_inj _ _ _ N i j a b x y Ea Eb Ex Ej) Hab). lia.
Qed.

Section Props.
Context {V : Type} (o : ops V) (Ho : ops_ok o) (veqb : V -> V -> bool) (veqb_ok : forall a b, veqb a b = true <-> a = b) (row : list Z -> V) (width : V -> nat).
Variables (lib : list (list nat) -> simplex_tree) (isos : list (nat * nat) -> nat -> list (list nat)) (so : list (list nat) -> list (list nat)).
Variables (order : list nat -> list nat) (r : reduce) (down : bool) (ring : option nat) (md : nat) (m : net V).
Variables (files : option (list nat * list nat)) (assign : list nat -> result (list nat)) (fold : Z).

(** What the theorems claim of a data set made of the documents [ds]: [code i v] is the feature column of node [v] of document [i],
    [cls] the classes of the documents. *)
Record faithful (ds : list doc) (cls : list nat) (k : nat) (code : nat -> nat -> nat) (data : dataset V) : Prop := {
  (* the documents have graphs *)
  fa_graph : forall i d, nth_error ds i = Some d -> exists g : LiftModel.graph V, doc_graph row k (code i) d g;
  (* the parts *)
  fa_parts : exists train val, ids_of Train data = Some train /\ ids_of Valid data = Some val /\
    match files with
    | Some p => p = (train, val)
    | None => Permutation (train ++ val) (seq 0 (length ds)) /\ forall folds, assign cls = Ok folds -> forall i, In i val <-> nth_error folds i = Some (Z.to_nat fold)
    end;
  fa_test : get_split data "test" = Err AssertionError;
  (* predictions, classes *)
  fa_out : forall s (n : split_name s) ids bs loss_fn, ids_of n data = Some ids -> ids <> [] -> 1 <= bs ->
    exists out ml ys, infer_split (net_forward o m) bs data s = Ok out /\ eval_split (net_forward o m) loss_fn bs data s = Ok (out, ys, ml) /\
      Forall2 (fun i y => exists c, nth_error cls i = Some c /\ y = Z.of_nat c) ids ys /\
      Forall2 (fun i v => exists d, nth_error ds i = Some d /\ output_for o veqb row m ring r md down k (code i) d v) ids out
}.

(** The arguments: the ring size is absent or at least 4; the files of folds hold identifiers of graphs, otherwise the splitter of
    scikit-learn succeeds on the classes. *)
Record arguments (ds : list doc) : Prop := {
  ar_ring : match ring with Some max_ring => 3 < max_ring /\ md = 2 | None => 1 <= md end;
  ar_order : forall l, NoDup l -> Permutation (order l) l;
  ar_width : keeps_width width o;
  ar_row : forall l l', length l = length l' -> width (row l) = width (row l');
  ar_lib : good_lib lib;
  ar_isos : Forall (fun d => good_isos isos (length (d_nodes d))) ds;
  ar_set : good_set so;
  ar_net : cwn_net o m;
  ar_some : ds <> [];
  ar_docs : Forall doc_ok ds;
  ar_loops : ring <> None -> Forall no_loops ds;
  ar_files : match files with
    | Some (train, val) => forall i, In i (train ++ val) -> i < length ds
    | None => (0 <= fold < 10)%Z /\
        forall cls classes, numbered (map d_label ds) cls classes -> exists folds, assign cls = Ok folds /\ fold_numbers cls folds
    end
}.

Lemma pipeline ds degree file gs classes k code : arguments ds -> load_data order degree file = Ok (gs, classes) ->
  Forall2 structure ds gs -> numbered (map d_label ds) (map u_label gs) classes ->
  (forall i d g, nth_error ds i = Some d -> nth_error gs i = Some g -> length (u_x g) = length (d_nodes d) /\
     forall v l, nth_error (u_x g) v = Some l -> hot_at k (code i v) l) ->
  exists data, tu_dataset o veqb width lib isos so row order degree file ring r md down files assign fold = Ok data /\
    faithful ds (map u_label gs) k code data.
Proof.
  intros [A1 A2 A3 A4 A5 A6 A7 A8 A9 A10 A11 A12] EL HS HN HX.
  set (Gs := map (fun g => pyg_graph row (to_pyg g)) gs). set (cls := map u_label gs).
  assert (Hlen : length ds = length Gs) by (unfold Gs; rewrite map_length; apply (Forall2_length HS)).
  assert (Hrd : ring_dim ring md) by (unfold ring_dim; destruct ring; tauto).
  assert (Hds : Forall (convertible ring) ds).
  { apply Forall_forall. intros d Hd. rewrite Forall_forall in A10. split; auto. destruct ring; auto. specialize (A11 ltac:(discriminate)). rewrite Forall_forall in A11. auto. }
  assert (HB : forall i d g, nth_error ds i = Some d -> nth_error gs i = Some g -> both_directions d (u_edge_mat g)).
  { intros i d g Hd Hg. destruct (Forall2_nth_error_l _ _ _ HS _ _ Hd) as (g' & Hg' & _ & B & _). congruence. }
  assert (Hg : forall i d g, nth_error ds i = Some d -> nth_error Gs i = Some g -> doc_graph row k (code i) d g).
  { intros i d g Hd Hgi. unfold Gs in Hgi. rewrite nth_error_map in Hgi. destruct (nth_error gs i) as [t|] eqn:Et; [|discriminate]. inversion Hgi; subst g.
    destruct (HX i d t Hd Et) as [Lx Hh]. pose proof (HB i d t Hd Et) as B. constructor; cbn [pyg_graph to_pyg LiftModel.g_n LiftModel.g_x LiftModel.g_edges LiftModel.g_attr LiftModel.g_y p_x p_edge_index p_num_nodes p_y map].
    - exact Lx.
    - rewrite map_length. exact Lx.
    - intros v a Hv. rewrite nth_error_map in Hv. destruct (nth_error (u_x t) v) as [l|] eqn:El; [|discriminate]. inversion Hv; subst. exists l. split; auto.
    - intros u v H. apply (bd_only _ _ B). auto.
    - assert (Gin : forall u v n, occurrences (u, v) (u_edge_mat t) = S n -> In (u, v) (u_edge_mat t)).
      { clear. intros u v n H. unfold occurrences in H. destruct (filter _ (u_edge_mat t)) as [|[a b] l] eqn:E; [discriminate|].
        assert (Hin : In (a, b) ((a, b) :: l)) by (left; auto). rewrite <- E in Hin. apply filter_In in Hin as [Hin Hb]. apply andb_true_iff in Hb as [B1 B2].
        apply Nat.eqb_eq in B1, B2. cbn in *. subst. exact Hin. }
      intros u v H. left. destruct (Nat.eq_dec u v) as [->|Hne]; [apply (Gin _ _ 1), (bd_loop _ _ B); auto|apply (Gin _ _ 0), (bd_edge _ _ B); auto].
    - reflexivity.
    - eexists. reflexivity. }
  assert (Hy : Forall2 (fun g y => LiftModel.g_y g = Some [Z.of_nat y]) Gs cls).
  { unfold Gs, cls. clear. induction gs as [|g gs IH]; constructor; auto. }
  assert (Hs : ring <> None -> Forall (fun g => simple_edges (LiftModel.g_edges g)) Gs).
  { intros Hr. specialize (A11 Hr). apply Forall_forall. intros g Hin. apply In_nth_error in Hin as [i Hi]. unfold Gs in Hi. rewrite nth_error_map in Hi.
    destruct (nth_error gs i) as [t|] eqn:Et; [|discriminate]. inversion Hi; subst g. cbn [pyg_graph to_pyg LiftModel.g_edges p_edge_index].
    destruct (Forall2_nth_error_r _ _ _ HS _ _ Et) as (d & Hd & _). pose proof (HB i d t Hd Et) as B. rewrite Forall_forall in A11. pose proof (A11 d (nth_error_In _ _ Hd)) as NL.
    assert (LF : loop_free (u_edge_mat t)).
    { intros u v H E. subst v. apply (bd_only _ _ B) in H. destruct H as [H|H]; apply (NL u H). }
    split; [|split; [exact LF|]].
    - apply single_nodup. intros [u v] H. apply (bd_edge _ _ B); [apply (bd_only _ _ B); auto|apply LF; auto].
    - intros u v H. pose proof (LF u v H) as Hne. apply (bd_only _ _ B) in H. apply linked_sym in H. pose proof (bd_edge _ _ B v u H ltac:(auto)) as O.
      unfold occurrences in O. destruct (filter _ (u_edge_mat t)) as [|[a b] l] eqn:E; [discriminate|].
      assert (Hin : In (a, b) ((a, b) :: l)) by (left; auto). rewrite <- E in Hin. apply filter_In in Hin as [Hin Hb]. apply andb_true_iff in Hb as [B1 B2].
      apply Nat.eqb_eq in B1, B2. cbn in *. subst. exact Hin. }
  destruct (convert_ok o veqb veqb_ok row width lib isos so r down k ring md ds Gs code A3 A4 A5 A6 A7 Hrd Hds Hlen Hg Hs) as (ks & dim & nf & EC & HF).
  pose proof (docs_collection o Ho veqb veqb_ok row lib isos so r down k ring md ds Gs code cls A5 A6 A7 Hrd Hds A9 Hlen Hg Hy ks HF) as HC.
  destruct (C31_collate_get_partial ks md HC) as (co & Eco & Hcl & _).
  assert (Hcls : length cls = length ds) by (unfold cls; rewrite map_length; symmetry; apply (Forall2_length HS)).
  assert (HQ : exists data, tu_dataset o veqb width lib isos so row order degree file ring r md down files assign fold = Ok data /\
     d_data data = Some co /\ d_max_dim data = md /\ cache_ok data (length ks) (fetch co md) /\ d_indices data = None /\ d_test data = None /\
     exists train val, ids_of Train data = Some train /\ ids_of Valid data = Some val /\ (forall i, In i (train ++ val) -> i < length ds) /\
       match files with
       | Some p => p = (train, val)
       | None => Permutation (train ++ val) (seq 0 (length ds)) /\ forall folds, assign cls = Ok folds -> forall i, In i val <-> nth_error folds i = Some (Z.to_nat fold)
       end).
  { unfold tu_dataset.
    assert (Q1 : assert_ (match ring with None => true | Some max_ring => 3 <? max_ring end) = Ok tt).
    { destruct ring as [mr|]; auto. destruct A1 as [A1 _]. apply Nat.ltb_lt in A1. rewrite A1. reflexivity. }
    assert (Q2 : assert_ (match ring with None => true | Some _ => md =? 2 end) = Ok tt).
    { destruct ring as [mr|]; auto. destruct A1 as [_ ->]. reflexivity. }
    rewrite Q1, Q2, EL. cbn [bind fst]. fold Gs. rewrite EC. cbn [bind fst]. rewrite Eco. cbn [bind].
    destruct files as [[train val]|].
    - eexists. split; [reflexivity|]. split; [reflexivity|]. split; [reflexivity|]. split.
      + apply (loaded_cache (mkDataset md (Some co) None (Some train) (Some val) None None) co md ks); [split; [|split]; reflexivity|exact Eco|apply (cl_nonvoid _ _ HC)].
      + split; [reflexivity|]. split; [reflexivity|]. exists train, val. split; [reflexivity|]. split; [reflexivity|]. split; [exact A12|reflexivity].
    - destruct A12 as [Hfold Has]. destruct (Has cls classes HN) as (folds & Ef & Hfn).
      destruct (labels_read o Ho veqb veqb_ok row lib isos so r down k ring md ds Gs code cls A5 A6 A7 Hrd Hds A9 Hlen Hg Hy ks HF co Eco) as (ds1 & H1 & (l & H2 & H3 & H4) & H5).
      rewrite H1. cbn [bind]. rewrite H2, H3. cbn [bind]. rewrite H4. cbn [bind].
      destruct (C43_fold assign cls folds fold Ef Hfn Hfold) as (train & val & E1 & P & _). rewrite E1. cbn [bind fst snd].
      eexists. split; [reflexivity|]. split; [reflexivity|]. split; [reflexivity|]. split.
      + destruct H5 as [H5 H6]. split; [exact H5|]. cbn [d_cache]. destruct (d_cache ds1); [exact H6|].
        cbn. rewrite Hcl. reflexivity.
      + split; [reflexivity|]. split; [reflexivity|]. exists train, val. split; [reflexivity|]. split; [reflexivity|]. rewrite Hcls in P. split.
        * intros i Hi. apply (Permutation_in i P) in Hi. apply in_seq in Hi. lia.
        * split; [exact P|]. intros folds' Ef' i. assert (folds' = folds) by congruence. subst folds'.
          destruct (get_fold_ok assign cls folds fold Ef Hfold) as [G1 G2]. rewrite G2 in G1. assert (Ev : (train, val) = (train, val)) by reflexivity. rewrite E1 in G1. inversion G1 as [[T1 T2]]. clear.
          rewrite in_map_iff. split.
          -- intros ([a b] & <- & H). apply filter_In in H as [H Hb]. cbn in Hb. apply Nat.eqb_eq in Hb. subst b. apply In_nth_error in H as [p Hp].
             assert (G : forall (l : list nat) s p a b, nth_error (combine (seq s (length l)) l) p = Some (a, b) -> a = s + p /\ nth_error l p = Some b).
             { clear. induction l as [|x l IH]; intros s [|p] a b H; try discriminate; cbn [length seq combine nth_error] in H.
               - inversion H; subst. split; [lia|reflexivity].
               - apply IH in H as [-> H]. split; [lia|exact H]. }
             apply G in Hp as [-> Hp]. exact Hp.
          -- intros H. exists (i, Z.to_nat fold). split; auto. apply filter_In. split; [|cbn; apply Nat.eqb_refl].
             assert (G : forall (l : list nat) s p b, nth_error l p = Some b -> nth_error (combine (seq s (length l)) l) p = Some (s + p, b)).
             { clear. induction l as [|x l IH]; intros s [|p] b H; try discriminate; cbn [length seq combine nth_error] in *.
               - inversion H; subst. rewrite Nat.add_0_r. reflexivity.
               - rewrite (IH (S s) p b H). f_equal. f_equal. lia. }
             apply (nth_error_In _ i). apply (G folds 0). exact H. }
  destruct HQ as (data & E & Hd & Hmd & Hcache & Hind & Htest & train & val & It & Iv & Hrange & Hparts). exists data. split; [exact E|]. constructor.
  - intros i d Hi. assert (i < length Gs) by (rewrite <- Hlen; apply nth_error_Some; congruence). destruct (nth_error Gs i) as [g|] eqn:Eg; [|apply nth_error_None in Eg; lia]. exists g. eauto.
  - exists train, val. auto.
  - unfold get_split. simpl. rewrite Htest. reflexivity.
  - intros s n ids bs loss_fn Hids Hnil Hb.
    assert (Hr : forall i, In i ids -> i < length ds).
    { intros i Hi. apply Hrange. apply in_app_iff. destruct n; cbn [ids_of] in *; [left|right|congruence]; congruence. }
    destruct (predictions o Ho veqb veqb_ok row lib isos so r down k ring md m ds Gs code cls A5 A6 A7 Hrd Hds A9 A8 Hlen Hg Hy ks HF co data loss_fn s n ids bs Eco Hd Hmd Hcache Hind Hids Hr Hnil Hb)
      as (out & ml & I1 & I2 & I3).
    eexists out, ml, _. split; [exact I1|]. split; [exact I2|]. split; [|exact I3].
    clear - Hr Hcls. induction ids as [|i ids IH]; constructor.
    + specialize (Hr i (or_introl eq_refl)). unfold class_of. exists (nth i cls 0). split; auto. apply nth_error_nth'. lia.
    + apply IH. intros j Hj. apply Hr. right. auto.
Qed.

(** C81: with the tags of the nodes as features. *)
Theorem C81_tags ds rest : arguments ds ->
  exists data cls classes k code, tu_dataset o veqb width lib isos so row order false (file_lines ds ++ rest) ring r md down files assign fold = Ok data /\
    numbered (map d_label ds) cls classes /\
    (forall i j d d' u v a b, nth_error ds i = Some d -> nth_error ds j = Some d' -> nth_error (d_nodes d) u = Some a -> nth_error (d_nodes d') v = Some b ->
       code i u < k /\ (n_tag a = n_tag b <-> code i u = code j v)) /\
    faithful ds cls k code data.
Proof.
  intros HA. destruct (C42_load_data_partial ds order rest (ar_docs _ HA) (ar_order _ HA)) as (gs & classes & tags & column & EL & HS & NL & NT & Hinj & HX).
  set (code := fun i v => match nth_error gs i with Some g => column (nth v (u_tags g) 0) | None => 0 end).
  assert (Hpair : forall i d g, nth_error ds i = Some d -> nth_error gs i = Some g -> u_size g = length (d_nodes d) /\ length (u_tags g) = u_size g /\ length (u_x g) = u_size g).
  { intros i d g Hd Hg. destruct (Forall2_nth_error_l _ _ _ HS _ _ Hd) as (g' & Hg' & Sz & _). assert (g' = g) by congruence. subst g'.
    destruct (HX g (nth_error_In _ _ Hg)) as (L1 & L2 & _). auto. }
  destruct (pipeline ds false (file_lines ds ++ rest) gs classes tags code HA EL HS NL) as (data & E & F).
  { intros i d g Hd Hg. destruct (Hpair i d g Hd Hg) as (Sz & L1 & L2). split; [lia|]. intros v l Hl. unfold code. rewrite Hg.
    destruct (HX g (nth_error_In _ _ Hg)) as (_ & _ & H). assert (v < length (u_x g)) by (apply nth_error_Some; congruence).
    apply (H v _ l); [apply nth_error_nth'; lia|exact Hl]. }
  exists data, (map u_label gs), classes, tags, code. split; [exact E|]. split; [exact NL|]. split; [|exact F].
  assert (HP : forall i d u a, nth_error ds i = Some d -> nth_error (d_nodes d) u = Some a -> exists p t, code i u = column t /\ t < tags /\
    nth_error (flat_map (fun d => map n_tag (d_nodes d)) ds) p = Some (n_tag a) /\ nth_error (flat_map u_tags gs) p = Some t).
  { intros i d u a Hd Ha. rewrite !flat_map_concat_map.
    destruct (concat_pos (map (fun d => map n_tag (d_nodes d)) ds) (map u_tags gs) i u (map n_tag (d_nodes d)) (n_tag a)) as (p & l' & H1 & H2 & H3).
    - clear - HS HX. induction HS as [|d g ds gs (Sz & _) HS IH]; constructor; [rewrite map_length; destruct (HX g (or_introl eq_refl)) as (L & _); lia|].
      apply IH. intros g' Hg'. apply HX. right. auto.
    - rewrite nth_error_map, Hd. reflexivity.
    - rewrite nth_error_map, Ha. reflexivity.
    - rewrite nth_error_map in H1. destruct (nth_error gs i) as [g|] eqn:Eg; [|discriminate]. inversion H1; subst l'. destruct (Hpair i d g Hd Eg) as (Sz & L1 & _).
      assert (u < length (d_nodes d)) by (apply nth_error_Some; congruence).
      assert (Ht : nth_error (u_tags g) u = Some (nth u (u_tags g) 0)) by (apply nth_error_nth'; lia).
      exists p, (nth u (u_tags g) 0). split; [unfold code; rewrite Eg; reflexivity|]. rewrite Ht in H3. split; [|split; [exact H2|exact H3]].
      apply (nb_bound _ _ _ NT p). rewrite flat_map_concat_map. exact H3. }
  intros i j d d' u v a b Hd Hd' Ha Hb. destruct (HP i d u a Hd Ha) as (p & t & C1 & B1 & R1 & N1). destruct (HP j d' v b Hd' Hb) as (q & t' & C2 & B2 & R2 & N2).
  split.
  - destruct (Forall2_nth_error_l _ _ _ HS _ _ Hd) as (g & Hg & _). destruct (Hpair i d g Hd Hg) as (Sz & L1 & L2).
    assert (u < length (d_nodes d)) by (apply nth_error_Some; congruence).
    destruct (HX g (nth_error_In _ _ Hg)) as (_ & _ & H0). destruct (nth_error (u_x g) u) as [l|] eqn:El; [|apply nth_error_None in El; lia].
    destruct (H0 u (nth u (u_tags g) 0) l) as (_ & Hk & _); [apply nth_error_nth'; lia|exact El|]. unfold code. rewrite Hg. exact Hk.
  - rewrite C1, C2, (nb_inj _ _ _ NT p q (n_tag a) (n_tag b) t t' R1 R2 N1 N2). split; [congruence|]. intros H. apply Hinj; auto.
Qed.

(** C81: with the degrees as features; every document must have an edge at its last node, see C42_degree_refuted. *)
Theorem C81_degrees ds rest : arguments ds -> Forall (fun d => exists v, linked d (length (d_nodes d) - 1) v) ds ->
  exists data cls classes k code, tu_dataset o veqb width lib isos so row order true (file_lines ds ++ rest) ring r md down files assign fold = Ok data /\
    numbered (map d_label ds) cls classes /\
    (forall i j d d' u v a b, nth_error ds i = Some d -> nth_error ds j = Some d' -> u < length (d_nodes d) -> v < length (d_nodes d') ->
       degree_is d u a -> degree_is d' v b -> code i u < k /\ (a < b <-> code i u < code j v)) /\
    faithful ds cls k code data.
Proof.
  intros HA Hlast. destruct (C42_degree_as_tag_partial ds order rest (ar_some _ HA) (ar_docs _ HA) Hlast (ar_order _ HA)) as (gs & classes & columns & column & EL & HS & NL & HX & Hmono & _).
  set (code := fun i v => match nth_error ds i with Some d => column (degree_in d v) | None => 0 end).
  pose proof (ar_docs _ HA) as HD. rewrite Forall_forall in HD.
  assert (HXi : forall i d g, nth_error ds i = Some d -> nth_error gs i = Some g -> length (u_x g) = length (d_nodes d) /\
     forall v l, nth_error (u_x g) v = Some l -> hot_at columns (code i v) l).
  { intros i d g Hd Hg. destruct (Forall2_nth_error_l _ _ _ HX _ _ Hd) as (g' & Hg' & L & H). assert (g' = g) by congruence. subst g'. split; auto.
    intros v l Hl. unfold code. rewrite Hd. eapply H; eauto. apply degree_in_ok. apply HD. eapply nth_error_In; eauto. }
  destruct (pipeline ds true (file_lines ds ++ rest) gs classes columns code HA EL HS NL HXi) as (data & E & F).
  exists data, (map u_label gs), classes, columns, code. split; [exact E|]. split; [exact NL|]. split; [|exact F].
  assert (HC : forall i d u a, nth_error ds i = Some d -> degree_is d u a -> code i u = column a).
  { intros i d u a Hd Ha. unfold code. rewrite Hd. f_equal. eapply degree_unique; eauto. apply degree_in_ok, HD. eapply nth_error_In; eauto. }
  intros i j d d' u v a b Hd Hd' Hu Hv Ha Hb. split.
  - destruct (Forall2_nth_error_l _ _ _ HS _ _ Hd) as (g & Hg & _). destruct (HXi i d g Hd Hg) as [L H].
    destruct (nth_error (u_x g) u) as [l|] eqn:El; [|apply nth_error_None in El; lia]. apply (H u l El).
  - rewrite (HC i d u a Hd Ha), (HC j d' v b Hd' Hb).
    pose proof (Hmono d d' u v a b (nth_error_In _ _ Hd) (nth_error_In _ _ Hd') Hu Hv Ha Hb) as M1.
    pose proof (Hmono d' d v u b a (nth_error_In _ _ Hd') (nth_error_In _ _ Hd) Hv Hu Hb Ha) as M2.
    split; [exact M1|]. intros H. destruct (Nat.lt_trichotomy a b) as [?|[->|Hgt]]; [auto|lia|apply M2 in Hgt; lia].
Qed.
End Props.

Section Folds.
Context {V : Type} (o : ops V) (Ho : ops_ok o) (veqb : V -> V -> bool) (veqb_ok : forall a b, veqb a b = true <-> a = b) (row : list Z -> V) (width : V -> nat).
Variables (lib : list (list nat) -> simplex_tree) (isos : list (nat * nat) -> nat -> list (list nat)) (so : list (list nat) -> list (list nat)).
Variables (order : list nat -> list nat) (r : reduce) (down : bool) (ring : option nat) (md : nat) (m : net V) (assign : list nat -> result (list nat)).

(** C81: over the ten folds of cross-validation every graph is in the validation part exactly once. *)
Theorem C81_cross_validation ds rest : arguments o row width lib isos so order ring md m None assign 0%Z ds ->
  (forall f, f < 10 -> exists data, tu_dataset o veqb width lib isos so row order false (file_lines ds ++ rest) ring r md down None assign (Z.of_nat f) = Ok data) /\
  forall i, i < length ds -> exists! f, f < 10 /\ exists data val,
    tu_dataset o veqb width lib isos so row order false (file_lines ds ++ rest) ring r md down None assign (Z.of_nat f) = Ok data /\ ids_of Valid data = Some val /\ In i val.
Proof.
  intros HA.
  assert (HAf : forall f, f < 10 -> arguments o row width lib isos so order ring md m None assign (Z.of_nat f) ds).
  { intros f Hf. destruct HA as [A1 A2 A3 A4 A5 A6 A7 A8 A9 A10 A11 [_ A12]]. constructor; auto. split; [lia|exact A12]. }
  assert (HF : exists cls classes folds, numbered (map d_label ds) cls classes /\ assign cls = Ok folds /\ fold_numbers cls folds /\ length cls = length ds /\
    forall f, f < 10 -> exists data val, tu_dataset o veqb width lib isos so row order false (file_lines ds ++ rest) ring r md down None assign (Z.of_nat f) = Ok data /\
      ids_of Valid data = Some val /\ forall i, In i val <-> nth_error folds i = Some f).
  { destruct (C81_tags o Ho veqb veqb_ok row width lib isos so order r down ring md m None assign 0%Z ds rest HA) as (_ & cls & classes & _ & _ & _ & HN & _).
    destruct HA as [A1 A2 A3 A4 A5 A6 A7 A8 A9 A10 A11 [_ A12]]. destruct (A12 cls classes HN) as (folds & Ef & Hf). exists cls, classes, folds.
    split; [exact HN|]. split; [exact Ef|]. split; [exact Hf|]. split; [rewrite (nb_len _ _ _ HN), map_length; reflexivity|].
    intros f Hlt. destruct (C81_tags o Ho veqb veqb_ok row width lib isos so order r down ring md m None assign (Z.of_nat f) ds rest (HAf f Hlt))
      as (data & cls' & classes' & k & code & E & HN' & _ & F). destruct (fa_parts _ _ _ _ _ _ _ _ _ _ _ _ _ _ _ _ F) as (train & val & _ & Iv & _ & Hv).
    rewrite <- (numbered_unique _ _ _ _ _ HN HN') in Hv. exists data, val. split; [exact E|]. split; [exact Iv|]. intros i. rewrite (Hv folds Ef i), Nat2Z.id. tauto. }
  destruct HF as (cls & classes & folds & _ & _ & [Lf Hb] & Lc & HF). split.
  - intros f Hf. destruct (HF f Hf) as (data & _ & E & _). eauto.
  - intros i Hi. destruct (nth_error folds i) as [f|] eqn:Ei; [|apply nth_error_None in Ei; lia]. rewrite Forall_forall in Hb. pose proof (Hb f (nth_error_In _ _ Ei)) as Hf.
    exists f. split.
    + split; auto. destruct (HF f Hf) as (data & val & E & Iv & Hv). exists data, val. split; [exact E|]. split; [exact Iv|]. apply Hv. exact Ei.
    + intros f' (Hf' & data & val & E & Iv & Hin). destruct (HF f' Hf') as (data' & val' & E' & Iv' & Hv). rewrite E' in E. inversion E; subst data'. rewrite Iv' in Iv. inversion Iv; subst val'.
      apply Hv in Hin. congruence.
Qed.
End Folds.

(** ** Examples *)
(** A triangle with a tail, a square, a path; classes 5, -3, 5. *)
Definition trio_docs : list doc :=
  [mkDoc 5 [mkNode 7 [1; 2] []; mkNode 7 [2] [TFloat]; mkNode 9 [3] []; mkNode 7 [] []];
   mkDoc (-3) [mkNode 9 [1; 3] []; mkNode 4 [2] []; mkNode 4 [3] []; mkNode 9 [] []];
   mkDoc 5 [mkNode 4 [1] []; mkNode 7 [2] []; mkNode 7 [1] []]].
Lemma trio_docs_ok : Forall doc_ok trio_docs.
Proof. apply doc_okb_ok. reflexivity. Qed.
Lemma no_loops_check ds : forallb (fun d => forallb (fun u => negb (linkedb d u u)) (seq 0 (length (d_nodes d)))) ds = true -> Forall no_loops ds.
Proof.
  intros H. rewrite forallb_forall in H. apply Forall_forall. intros d Hd u M. specialize (H d Hd). rewrite forallb_forall in H.
  assert (Hu : u < length (d_nodes d)) by (destruct M as (nd & E & _); apply nth_error_Some; congruence).
  specialize (H u ltac:(apply in_seq; lia)). rewrite (proj2 (linkedb_ok d u u) (or_introl M)) in H. discriminate.
Qed.
Lemma trio_no_loops : Forall no_loops trio_docs.
Proof. apply no_loops_check. reflexivity. Qed.
Definition binary (l : list Z) : Z := fold_left (fun a b => 2 * a + b)%Z l 0%Z.
Definition turn_by (labels : list nat) : result (list nat) := Ok (map (fun i => i mod 10) (seq 0 (length labels))).
Lemma turn_by_ok labels : exists folds, turn_by labels = Ok folds /\ fold_numbers labels folds.
Proof.
  eexists. split; [reflexivity|]. split; [rewrite map_length, seq_length; reflexivity|]. apply Forall_forall. intros i Hi. apply in_map_iff in Hi as (j & <- & _). apply Nat.mod_upper_bound. lia.
Qed.
Definition ring_arguments files fold := arguments Zops binary one (any_lib true) all_isos (@rev _) (@List.rev nat) (Some 6) 2 ex_net files turn_by fold trio_docs.
Definition clique_arguments files fold := arguments Zops binary one (any_lib false) all_isos (@rev _) (@List.rev nat) None 3 ex_net files turn_by fold trio_docs.
Lemma rev_set : good_set (@rev (list nat)).
Proof. intros l _. apply Permutation_sym, Permutation_rev. Qed.
Lemma ring_arguments_ok : ring_arguments None 1%Z.
Proof.
  constructor; try reflexivity; auto using one_ok, any_lib_ok, rev_set, trio_docs_ok, trio_no_loops.
  - intros l _. apply Permutation_sym, Permutation_rev.
  - apply Forall_forall. intros d _. apply all_isos_ok.
  - apply C06_hyps.
  - discriminate.
  - split; [lia|]. intros. apply turn_by_ok.
Qed.
Lemma clique_arguments_ok : clique_arguments (Some ([2; 0], [1])) 0%Z.
Proof.
  constructor; try reflexivity; auto using one_ok, any_lib_ok, rev_set, trio_docs_ok, trio_no_loops.
  - intros l _. apply Permutation_sym, Permutation_rev.
  - apply Forall_forall. intros d _. apply all_isos_ok.
  - apply C06_hyps.
  - discriminate.
  - cbn. intros i H. lia.
Qed.
Lemma cross_arguments_ok : ring_arguments None 0%Z.
Proof.
  constructor; try reflexivity; auto using one_ok, any_lib_ok, rev_set, trio_docs_ok, trio_no_loops.
  - intros l _. apply Permutation_sym, Permutation_rev.
  - apply Forall_forall. intros d _. apply all_isos_ok.
  - apply C06_hyps.
  - discriminate.
  - split; [lia|]. intros. apply turn_by_ok.
Qed.
Example C81_rings_example := C81_tags Zops Zops_ok Z.eqb Zeqb_ok binary one (any_lib true) all_isos (@rev _) (@List.rev nat) RMean true (Some 6) 2 ex_net None turn_by 1%Z
  trio_docs [[TFloat]] ring_arguments_ok.
Example C81_cliques_example := C81_tags Zops Zops_ok Z.eqb Zeqb_ok binary one (any_lib false) all_isos (@rev _) (@List.rev nat) RAdd false None 3 ex_net (Some ([2; 0], [1])) turn_by 0%Z
  trio_docs [] clique_arguments_ok.
Lemma trio_last : Forall (fun d => exists v, linked d (length (d_nodes d) - 1) v) trio_docs.
Proof.
  constructor; [exists 2; right; eexists; split; [reflexivity|cbn; auto]|]. constructor; [exists 2; right; eexists; split; [reflexivity|cbn; auto]|].
  constructor; [exists 1; left; eexists; split; [reflexivity|cbn; auto]|constructor].
Qed.
Example C81_degrees_example := C81_degrees Zops Zops_ok Z.eqb Zeqb_ok binary one (any_lib true) all_isos (@rev _) (@List.rev nat) RMean true (Some 6) 2 ex_net None turn_by 1%Z
  trio_docs [] ring_arguments_ok trio_last.
Example C81_cross_example := C81_cross_validation Zops Zops_ok Z.eqb Zeqb_ok binary one (any_lib true) all_isos (@rev _) (@List.rev nat) RMean true (Some 6) 2 ex_net turn_by
  trio_docs [] cross_arguments_ok.
Example C81_computed : exists data a b, a <> b /\
  tu_dataset Zops Z.eqb one (any_lib true) all_isos (@rev _) binary (@List.rev nat) false (file_lines trio_docs) (Some 6) RMean 2 true None turn_by 1%Z = Ok data /\
  d_train data = Some [0; 2] /\ d_val data = Some [1] /\
  infer_split (net_forward Zops ex_net) 2 data "train" = Ok [a; b] /\ infer_split (net_forward Zops ex_net) 1 data "train" = Ok [a; b].
Proof. eexists _, _, _. split; [|split; [vm_compute; reflexivity|split; [reflexivity|split; [reflexivity|split; vm_compute; reflexivity]]]]. discriminate. Qed.
Print Assumptions C81_cross_validation.
Print Assumptions C81_tags.
Print Assumptions C81_degrees.
