(** C74: partial results do not depend on batches. *)
From Coq Require Import String List Arith Lia ZArith Bool Permutation.
From Verif Require Import Base ScatterModel ScatterSpec ScatterProofs ComplexModel BatchSpec BatchSpec2
  BatchProofs BatchProofs2 BatchProps MPModel MPSpec MPProofs MPEngine MPBatch MPForward MPNets MPProps
  LiftModel LiftSpec LiftBase LiftProofs LiftProps LiftRingProps LiftRingExamples EmbedModel EmbedSpec EmbedProofs EmbedNets EmbedProps.
From Verif Require Import PartialModel PartialSpec PartialProofs.
Import ListNotations.
Open Scope string_scope.
Open Scope nat_scope.
Open Scope list_scope.

(** The partial results of one complex alone. *)
Definition alone {V} (forward : kbatch V -> result (list V * dict (list V) * kbatch V)) (D : nat) (k : complex V) (res : dict (list V)) : Prop :=
  exists b out b', from_complex_list [k] D = Ok b /\ forward b = Ok (out, res, b').

Section Generic.
Context {V : Type}.
Notation complex := (complex V).
Notation sized := (complex * (nat -> nat))%type.
Variables (forward : kbatch V -> result (list V * dict (list V) * kbatch V)) (D : nat) (mem : sized -> string -> option (list V)) (P : sized -> Prop) (G : list sized -> Prop).
Hypothesis Hrun : forall qs, qs <> [] -> Forall P qs -> G qs -> exists b out res b', from_complex_list (map fst qs) D = Ok b /\ forward b = Ok (out, res, b') /\ NoDup (map fst res) /\
  forall key, dict_get key res = join (map (fun q => mem q key) qs).
Hypothesis Hsub : forall qs qs', G qs -> incl qs' qs -> G qs'.

Lemma join_one {A} (x : option (list A)) : join [x] = x.
Proof. destruct x; reflexivity. Qed.
Lemma generic_batch qs : qs <> [] -> Forall P qs -> G qs -> exists b out res b' rs, from_complex_list (map fst qs) D = Ok b /\ forward b = Ok (out, res, b') /\ NoDup (map fst res) /\
  Forall2 (alone forward D) (map fst qs) rs /\ forall key, dict_get key res = join (map (dict_get key) rs).
Proof.
  intros Hne HP HG. destruct (Hrun qs Hne HP HG) as (b & out & res & b' & H1 & H2 & H3 & H4). exists b, out, res, b'.
  assert (X : exists rs, Forall2 (fun q r => alone forward D (fst q) r /\ forall key, dict_get key r = mem q key) qs rs).
  { assert (HI : incl qs qs) by (intros q; auto). clear H1 H2 H3 H4. revert HI. generalize qs at 1 3. intros l HI. induction l as [|q l IH]; [exists []; constructor|].
    destruct IH as [rs IH]; [intros x Hx; apply HI; now right|].
    destruct (Hrun [q]) as (b1 & out1 & r & b1' & A & B & C & E); [discriminate|repeat constructor; rewrite Forall_forall in HP; apply HP, HI; now left|apply (Hsub qs); [exact HG|intros x [<-|[]]; apply HI; now left]|].
    exists (r :: rs). constructor; [|exact IH]. split; [exists b1, out1, b1'; auto|]. intros key. rewrite E. apply join_one. }
  destruct X as [rs X]. exists rs. split; [exact H1|]. split; [exact H2|]. split; [exact H3|]. split.
  - clear - X. induction X as [|q r qs rs [H _] X IH]; constructor; auto.
  - intros key. rewrite H4. f_equal. clear - X. induction X as [|q r qs rs [_ H] X IH]; cbn; [reflexivity|]. now rewrite H, IH.
Qed.
Lemma generic_collect (cs : list (list sized)) : Forall (fun c => c <> []) cs -> Forall P (List.concat cs) -> G (List.concat cs) ->
  exists R, collect forward (map (map fst) cs) D = Ok R /\ NoDup (map fst R) /\ forall key, dict_get key R = join (map (fun q => mem q key) (List.concat cs)).
Proof.
  intros Hne HP HG. unfold collect.
  assert (X : exists rs, mapM (fun ks => let* b := from_complex_list ks D in let* r := forward b in Ok (snd (fst r))) (map (map fst) cs) = Ok rs /\
     Forall (fun r => NoDup (map fst r)) rs /\ forall key, map (dict_get key) rs = map join (map (map (fun q => mem q key)) cs)).
  { assert (HI : forall c, In c cs -> incl c (List.concat cs)) by (intros c Hc q Hq; apply in_concat; eauto).
    revert HI HP HG. generalize (List.concat cs) as all. intros all HI HP HG. induction Hne as [|c cs Hc Hne IH]; [exists []; repeat split; constructor|].
    destruct IH as (rs & H1 & H2 & H3); [intros c' Hc'; apply HI; now right|].
    assert (HIc : incl c all) by (apply HI; now left).
    destruct (Hrun c Hc) as (b & out & res & b' & A & B & C & E); [apply Forall_forall; intros q Hq; rewrite Forall_forall in HP; auto|apply (Hsub all); auto|].
    exists (res :: rs). cbn [map mapM]. rewrite A. cbn [bind]. rewrite B. cbn [bind fst snd]. rewrite H1. cbn [bind]. split; [reflexivity|]. split; [now constructor|].
    intros key. cbn [map]. now rewrite E, H3. }
  destruct X as (rs & H1 & H2 & H3). rewrite H1. cbn [bind]. eexists. split; [reflexivity|]. split; [apply collect_keys|].
  intros key. rewrite collect_get by exact H2. rewrite H3, join_chunks, <- concat_map. reflexivity.
Qed.
End Generic.

Section Props.
Context {V : Type} (o : ops V).
Hypothesis Hdiv : vdivn o (vzero o) 1 = vzero o.
Notation complex := (complex V).
Notation sized := (complex * (nat -> nat))%type.

(** ** SparseCIN and CIN++ *)
Lemma list_max_present (ks : list complex) Dm d : ks <> [] -> d <= Nat.min (list_max (map k_dim ks)) Dm -> exists k, In k ks /\ d <= k_dim k.
Proof.
  intros Hne Hd. assert (Hin : In (list_max (map k_dim ks)) (map k_dim ks)) by (apply list_max_exists; destruct ks; [congruence|discriminate]).
  apply in_map_iff in Hin as (k & Ek & Hk). exists k. split; auto. lia.
Qed.
Definition usable (D : nat) (q : sized) : Prop := wf_complex (fst q) (snd q) /\ has_features D (fst q) /\ 0 < snd q 0.
Definition plain_member (a : arch V) (D : nat) (q : sized) (key : string) : option (list V) :=
  dict_get key (member o a (skel_of D (fst q) (snd q)) (feats_of o (fst q))).
Lemma combine_split (qs : list sized) : combine (map fst qs) (map snd qs) = qs.
Proof. induction qs as [|[k sz] qs IH]; cbn; [reflexivity|]. now rewrite IH. Qed.

Lemma partial_list (m : net V) (a : arch V) Dm qs : net_ok o m a -> qs <> [] -> Forall (usable Dm) qs ->
  exists b out res b', from_complex_list (map fst qs) Dm = Ok b /\ partial_forward o m b = Ok (out, res, b') /\ NoDup (map fst res) /\
    map fst res = List.concat (map (fun c => map (layer_key c) (seq 0 (Nat.min (n_pdim m) (Nat.min (list_max (map k_dim (map fst qs))) Dm) + 1))) (seq 0 (length (a_layers a)))) ++
      map pool_key (seq 0 (length (n_dims m))) ++ ["out"] /\
    forall key, dict_get key res = join (map (fun q => plain_member a Dm q key) qs).
Proof.
  intros HN Hne HU. set (ks := map fst qs). set (szs := map snd qs). set (D := Nat.min (list_max (map k_dim ks)) Dm).
  assert (Hk : ks <> []) by (unfold ks; destruct qs; [congruence|discriminate]).
  assert (HW : Forall2 wf_complex ks szs) by (unfold ks, szs; clear - HU; induction HU as [|q qs (H & _) HU IH]; cbn; constructor; auto).
  assert (HF : forall k, In k ks -> has_features Dm k).
  { intros k Hin. apply in_map_iff in Hin as (q & <- & Hq). rewrite Forall_forall in HU. apply (HU q Hq). }
  assert (Hpos : Forall (fun sz : nat -> nat => 0 < sz 0) szs) by (unfold szs; clear - HU; induction HU as [|q qs (_ & _ & H) HU IH]; cbn; constructor; auto).
  destruct (from_complex_list_is_batch ks szs Dm Hk HW) as (b & Hb & HB & _).
  { intros d Hd. left. intros k c Hin Hc. apply (HF k Hin d c); auto. lia. }
  fold D in HB. pose proof (ib_complex _ _ _ _ HB) as HUn.
  assert (Hpres : forall d, d <= D -> exists k, In k ks /\ d <= k_dim k) by (intros d Hd; eapply list_max_present; [exact Hk|exact Hd]).
  assert (HFD : Forall (has_features D) ks).
  { apply Forall_forall. intros k Hin d c Hd Hc. apply (HF k Hin d c); auto. unfold D in Hd; lia. }
  pose proof (batch_represents o ks szs D (kb_complex b) HW HUn Hpres HFD) as HR.
  destruct (run_convs_spec o (n_max_dim m) (n_pdim m) (n_top m) (n_down m) (n_convs m) (a_layers a)
              (kb_complex b) _ _ (SB_ok ks szs D _ HW HUn) (nk_max _ _ _ HN) (nk_convs _ _ _ HN) HR) as (K' & Hr & _).
  destruct (partial_from o Hdiv m a ks szs D b (kb_complex b) (feats_of o (kb_complex b)) (fun q => feats_of o (fst q)) K' HN Hk HW HUn Hpres Hr) as (out & res & b' & H1 & H2 & H3 & H4).
  - intros i k sz Ek Es. apply (blk_agree o ks szs D (kb_complex b) HW HUn Hpres i k sz Ek Es HFD).
  - apply (ib_batch _ _ _ _ HB).
  - exact Hpos.
  - exists b, out, res, b'. split; [exact Hb|]. split; [exact H1|]. split; [exact H2|]. split; [exact H3|].
    intros key. rewrite H4. unfold ks, szs. rewrite combine_split. f_equal. apply map_ext_in. intros q Hq. unfold plain_member. f_equal. f_equal. apply skel_of_min.
    assert (k_dim (fst q) <= list_max (map k_dim ks)) by (apply in_list_max, in_map, in_map, Hq). unfold D. lia.
Qed.
Lemma layers_count (m : net V) a : net_ok o m a -> length (a_layers a) = length (n_convs m).
Proof. intros HN. symmetry. eapply Forall2_length. apply HN. Qed.
Lemma usable_pairs Dm ks szs : Forall2 wf_complex ks szs -> Forall (has_features Dm) ks -> Forall (fun sz => 0 < sz 0) szs -> Forall (usable Dm) (combine ks szs).
Proof.
  intros HW. induction HW as [|k sz ks szs H HW IH]; cbn; intros HF HP; [constructor|]. inversion HF; inversion HP; subst. constructor; [exact (conj H (conj H2 H6))|auto].
Qed.
Lemma map_fst_combine ks (szs : list (nat -> nat)) : length ks = length szs -> map fst (combine ks szs) = (ks : list complex).
Proof. revert szs. induction ks as [|k ks IH]; intros [|sz szs] H; cbn in *; try discriminate; [reflexivity|]. f_equal. apply IH. lia. Qed.

(** Asking for partial results changes neither the prediction nor the batch left behind. *)
Theorem C74_same_prediction (m : net V) b : match partial_forward o m b with Ok (out, _, b') => net_forward o m b = Ok (out, b') | Err e => net_forward o m b = Err e end.
Proof. apply partial_same. Qed.

(** The keys of a batch: every layer with every dimension processed, the pools, the output. *)
Theorem C74_keys (m : net V) ks szs D : cwn_net o m -> ks <> [] -> Forall2 wf_complex ks szs -> Forall (has_features D) ks -> Forall (fun sz => 0 < sz 0) szs ->
  exists b out res b', from_complex_list ks D = Ok b /\ partial_forward o m b = Ok (out, res, b') /\ NoDup (map fst res) /\
    map fst res = List.concat (map (fun c => map (layer_key c) (seq 0 (Nat.min (n_pdim m) (Nat.min (list_max (map k_dim ks)) D) + 1))) (seq 0 (length (n_convs m)))) ++
      map pool_key (seq 0 (length (n_dims m))) ++ ["out"].
Proof.
  intros Hm Hne HW HF HP. destruct (cwn_net_ok o Hdiv m Hm) as [a Ha]. pose proof (map_fst_combine ks szs (Forall2_length HW)) as E.
  destruct (partial_list m a D (combine ks szs) Ha) as (b & out & res & b' & H1 & H2 & H3 & H4 & _); [intros X; rewrite X in E; cbn in E; congruence|now apply usable_pairs|].
  rewrite E in *. rewrite (layers_count m a Ha) in H4. exists b, out, res, b'. auto.
Qed.

(** Every partial result of a batch is made of those of its members alone. *)
Theorem C74_batch (m : net V) ks szs D : cwn_net o m -> ks <> [] -> Forall2 wf_complex ks szs -> Forall (has_features D) ks -> Forall (fun sz => 0 < sz 0) szs ->
  exists b out res b' rs, from_complex_list ks D = Ok b /\ partial_forward o m b = Ok (out, res, b') /\ NoDup (map fst res) /\
    Forall2 (alone (partial_forward o m) D) ks rs /\ forall key, dict_get key res = join (map (dict_get key) rs).
Proof.
  intros Hm Hne HW HF HP. destruct (cwn_net_ok o Hdiv m Hm) as [a Ha]. pose proof (map_fst_combine ks szs (Forall2_length HW)) as E.
  destruct (generic_batch (partial_forward o m) D (plain_member a D) (usable D) (fun _ => True)) with (qs := combine ks szs) as (b & out & res & b' & rs & H1 & H2 & H3 & H4 & H5); auto.
  - intros qs Hq HU _. destruct (partial_list m a D qs Ha Hq HU) as (b & out & res & b' & H1 & H2 & H3 & _ & H5). exists b, out, res, b'. auto.
  - intros X. rewrite X in E. cbn in E. congruence.
  - now apply usable_pairs.
  - rewrite E in *. exists b, out, res, b', rs. auto.
Qed.

(** The test of the repository for all data, networks and batch sizes: partial results collected over the batches of a
    loader do not depend on how the loader cuts the data. *)
Lemma combine_app_eq {A B} (l1 l2 : list A) (r1 r2 : list B) : length l1 = length r1 -> combine (l1 ++ l2) (r1 ++ r2) = combine l1 r1 ++ combine l2 r2.
Proof. revert r1. induction l1 as [|x l1 IH]; intros [|y r1] H; cbn in *; try discriminate; [reflexivity|]. f_equal. apply IH. lia. Qed.
Lemma same_cut (ks : list complex) szs : length ks = length szs -> forall chunks, List.concat chunks = ks -> exists cs : list (list sized), map (map fst) cs = chunks /\ List.concat cs = combine ks szs.
Proof.
  intros Hl chunks. revert ks szs Hl. induction chunks as [|c chunks IH]; intros ks szs Hl E; cbn in E; subst ks.
  - exists []. cbn in Hl. destruct szs; [auto|discriminate].
  - rewrite app_length in Hl. destruct (IH (List.concat chunks) (skipn (length c) szs)) as (cs & H1 & H2); [rewrite skipn_length; lia|reflexivity|].
    exists (combine c (firstn (length c) szs) :: cs). cbn. rewrite H1, H2. split.
    + f_equal. apply map_fst_combine. rewrite firstn_length. lia.
    + rewrite <- (firstn_skipn (length c) szs) at 3. rewrite combine_app_eq; [reflexivity|]. rewrite firstn_length. lia.
Qed.
Theorem C74_loader (m : net V) ks szs D chunks chunks' : cwn_net o m -> Forall2 wf_complex ks szs -> Forall (has_features D) ks -> Forall (fun sz => 0 < sz 0) szs ->
  List.concat chunks = ks -> List.concat chunks' = ks -> Forall (fun c => c <> []) chunks -> Forall (fun c => c <> []) chunks' ->
  exists R R', collect (partial_forward o m) chunks D = Ok R /\ collect (partial_forward o m) chunks' D = Ok R' /\
    NoDup (map fst R) /\ NoDup (map fst R') /\ forall key, dict_get key R = dict_get key R'.
Proof.
  intros Hm HW HF HP E E' N N'. destruct (cwn_net_ok o Hdiv m Hm) as [a Ha]. pose proof (Forall2_length HW) as Hl.
  assert (X : forall ch, List.concat ch = ks -> Forall (fun c => c <> []) ch -> exists R, collect (partial_forward o m) ch D = Ok R /\ NoDup (map fst R) /\
     forall key, dict_get key R = join (map (fun q => plain_member a D q key) (combine ks szs))).
  { intros ch Ec Nc. destruct (same_cut ks szs Hl ch Ec) as (cs & H1 & H2). rewrite <- H1, <- H2.
    apply (generic_collect (partial_forward o m) D (plain_member a D) (usable D) (fun _ => True)); auto.
    - intros qs Hq HU _. destruct (partial_list m a D qs Ha Hq HU) as (b & out & res & b' & A1 & A2 & A3 & _ & A5). exists b, out, res, b'. auto.
    - rewrite <- H1 in Nc. clear - Nc. induction cs as [|c cs IH]; [constructor|]. inversion Nc; subst. constructor; [intros ->; cbn in *; congruence|auto].
    - rewrite H2. now apply usable_pairs. }
  destruct (X chunks E N) as (R & A1 & A2 & A3). destruct (X chunks' E' N') as (R' & B1 & B2 & B3). exists R, R'. repeat split; auto. intros key. now rewrite A3, B3.
Qed.

(** ** Embedding networks *)
Definition embed_member (m : enet V) (a : arch V) (D : nat) (q : sized) (key : string) : option (list V) :=
  dict_get key (member o a (skel_of D (fst q) (snd q)) (init_feats o (en_emb m) D (fst q) (snd q))).

Lemma embed_partial_list (m : enet V) (a : arch V) Dm (qs : list sized) : enet_ok o m a (Nat.min (list_max (map k_dim (map fst qs))) Dm) -> qs <> [] -> Forall (fun q => embeddable m (fst q) (snd q)) qs ->
  uniform_x (map fst qs) (Nat.min (list_max (map k_dim (map fst qs))) Dm) ->
  exists b out res b', from_complex_list (map fst qs) Dm = Ok b /\ embed_partial o m b = Ok (out, res, b') /\ NoDup (map fst res) /\
    map fst res = List.concat (map (fun c => map (layer_key c) (seq 0 (Nat.min (n_pdim (en_net m)) (Nat.min (list_max (map k_dim (map fst qs))) Dm) + 1))) (seq 0 (length (a_layers a)))) ++
      map pool_key (seq 0 (length (n_dims (en_net m)))) ++ ["out"] /\
    forall key, dict_get key res = join (map (fun q => embed_member m a Dm q key) qs).
Proof.
  intros HN Hnq HE Hux. set (ks := map fst qs) in *. set (szs := map snd qs). set (D := Nat.min (list_max (map k_dim ks)) Dm) in *.
  assert (Hne : ks <> []) by (unfold ks; destruct qs; [congruence|discriminate]).
  assert (HE2 : Forall2 (embeddable m) ks szs) by (unfold ks, szs; clear - HE; induction HE; cbn; constructor; auto).
  destruct (embeddable_parts m ks szs HE2) as (HW & H0 & HB & He).
  destruct (from_complex_list_is_batch ks szs Dm Hne HW) as (b & Hb & Hib & _); auto.
  fold D in Hib.
  assert (Hpres : forall d, d <= D -> exists k, In k ks /\ d <= k_dim k) by (intros d Hd; eapply list_max_present; [exact Hne|exact Hd]).
  pose proof (ib_complex _ _ _ _ Hib) as HU. set (K := kb_complex b) in *.
  destruct HN as [N1 N2 N3 N4 N5].
  destruct (embedded o ks szs D K HW HU Hpres Hux H0 HB (en_emb m) (en_dim m) N2)
    as (ps & K1 & Kf & Hps & Hev & Hset & HR & Hsim).
  { intros Hk. unfold edge_feats in Hk. destruct (attr c_x 1 K) as [x|] eqn:Ex; [|discriminate].
    unfold attr in Ex. destruct (nth_error (k_cochains K) 1) as [c|] eqn:Ec; [|discriminate].
    rewrite (un_x _ _ _ _ _ (uc_each _ _ _ _ HU _ _ Ec)) in Ex. unfold joined in Ex.
    destruct (existsb isSome (map (attr c_x 1) ks)) eqn:Eb; [|discriminate].
    apply existsb_exists in Eb as (oo & Hin & Ho). apply in_map_iff in Hin as (k & Ek & Hk').
    apply (He k Hk'). unfold edge_feats. rewrite Ek. auto. }
  assert (Hpos : Forall (fun sz : nat -> nat => 0 < sz 0) szs).
  { clear -HB. induction HB as [|k sz ks szs B HB IH]; constructor; auto. apply (bd_pos _ _ B). lia. }
  set (X0 := init_feats o (en_emb m) D K (total szs)) in *.
  destruct (run_convs_spec o (n_max_dim (en_net m)) (n_pdim (en_net m)) (n_top (en_net m)) (n_down (en_net m)) (n_convs (en_net m)) (a_layers a)
              Kf _ _ (SB_ok ks szs D _ HW HU) (nk_max _ _ _ N1) (nk_convs _ _ _ N1) HR) as (Kf' & Er & _).
  set (h := map _ _) in Er.
  assert (Hr1 : exists K1', run_convs (n_max_dim (en_net m)) (n_pdim (en_net m)) (n_top (en_net m)) (n_down (en_net m)) (n_convs (en_net m)) K1 = Ok (K1', h)).
  { destruct (Nat.le_gt_cases D (en_dim m)) as [HDe|HDe].
    - assert (K1 = Kf).
      { rewrite Nat.min_r in Hsim by auto.
        destruct Hsim as (pre & post & post' & E1 & E2 & Hl & Hl2 & HF & HDk & HY).
        destruct post as [|c post].
        - inversion HF; subst. destruct K1, Kf; simpl in *. subst. auto.
        - exfalso. specialize (Hl2 ltac:(discriminate)).
          assert (Hlen : length (k_cochains K1) = D + 1).
          { pose proof (re_len _ _ _ HR) as HL. rewrite (SB_dim ks szs D K HU) in HL.
            rewrite E2, app_length in HL. rewrite E1, app_length, (Forall2_length HF). auto. }
          rewrite E1, app_length in Hlen. simpl in Hlen. lia. }
      subst. eauto.
    - rewrite Nat.min_l in Hsim by lia.
      destruct (run_convs_sim (en_dim m) (n_max_dim (en_net m)) (n_pdim (en_net m)) (n_top (en_net m)) (n_down (en_net m))
                  (n_convs (en_net m)) K1 Kf Kf' h Hsim) as (K1' & Hr & _); auto; [|eauto].
      intros ls ut Hin. split; [eapply N4; eauto|]. intros Heq l Hl.
      destruct N5 as [N5|[N5|N5]]; [unfold D in *; lia|lia|]. eapply N5; eauto. }
  destruct Hr1 as [K1' Hr1].
  destruct (partial_from o Hdiv (en_net m) a ks szs D (mkKBatch K1 (kb_batch b) (kb_ptr b) (kb_num b)) K X0
     (fun q => init_feats o (en_emb m) D (fst q) (snd q)) K1' N1 Hne HW HU Hpres Hr1) as (out & res & b' & H1 & H2 & H3 & H4).
  - intros i k sz Ek Es. apply (init_agree o ks szs D K HW HU Hpres Hux H0 (en_emb m) i k sz Ek Es).
  - apply (ib_batch _ _ _ _ Hib).
  - exact Hpos.
  - exists b, out, res, b'. split; [exact Hb|]. split.
    { unfold embed_partial. fold K. destruct (K_at ks szs D K HU 0 (Nat.le_0_l D)) as (c0 & -> & _).
      rewrite Hps. cbn [bind]. rewrite Hev. cbn [bind]. rewrite Hset. cbn [bind]. exact H1. }
    split; [exact H2|]. split; [exact H3|]. intros key. rewrite H4. unfold ks, szs. rewrite combine_split. f_equal. apply map_ext_in. intros q Hq.
    assert (Hmin : skel_of D (fst q) (snd q) = skel_of Dm (fst q) (snd q)).
    { apply skel_of_min. assert (k_dim (fst q) <= list_max (map k_dim ks)) by (apply in_list_max, in_map, in_map, Hq). unfold D. lia. }
    unfold embed_member, init_feats. rewrite Hmin. reflexivity.
Qed.
Lemma enet_layers (m : enet V) a D : enet_ok o m a D -> length (a_layers a) = length (n_convs (en_net m)).
Proof. intros [HN _ _ _ _]. now apply layers_count. Qed.
Lemma embeddable_pairs (m : enet V) ks szs : Forall2 (embeddable m) ks szs -> Forall (fun q => embeddable m (fst q) (snd q)) (combine ks szs).
Proof. intros H. induction H; cbn; constructor; auto. Qed.
Lemma list_max_incl l l' : incl l l' -> list_max l <= list_max l'.
Proof. intros H. apply list_max_le, Forall_forall. intros x Hx. apply in_list_max. auto. Qed.

(** Batches on which the embedding network is defined: lists of complexes of which all or none have features, per dimension. *)
Definition even (m : enet V) (a : arch V) (Dm : nat) (qs : list sized) : Prop :=
  enet_ok o m a (Nat.min (list_max (map k_dim (map fst qs))) Dm) /\ uniform_x (map fst qs) (Nat.min (list_max (map k_dim (map fst qs))) Dm).
Lemma even_sub m a Dm qs qs' : even m a Dm qs -> incl qs' qs -> even m a Dm qs'.
Proof.
  intros [H1 H2] HI. assert (HM : incl (map fst qs') (map fst qs)) by (now apply incl_map).
  assert (HL : list_max (map k_dim (map fst qs')) <= list_max (map k_dim (map fst qs))) by (now apply list_max_incl, incl_map). split.
  - destruct H1 as [N1 N2 N3 N4 N5]. split; auto. destruct N5 as [N5|N5]; [left; lia|right; auto].
  - intros d Hd. destruct (H2 d) as [H|H]; [lia|left|right]; intros k c Hk Hc; apply (H k c); auto.
Qed.

Theorem C74_embedding_same_prediction (m : enet V) b : match embed_partial o m b with Ok (out, _, b') => embed_forward o m b = Ok (out, b') | Err e => embed_forward o m b = Err e end.
Proof.
  unfold embed_partial, embed_forward. destruct (nth_error _ 0); [|reflexivity]. destruct (get_all_cochain_params _ _ _ _ _); cbn [bind]; [|reflexivity].
  destruct (embed_ve _ _ _); cbn [bind]; [|reflexivity]. destruct (set_xs _ _); cbn [bind]; [|reflexivity]. apply partial_same.
Qed.
Theorem C74_embedding_batch (m : enet V) ks szs D : cwn_enet o (Nat.min (list_max (map k_dim ks)) D) m -> ks <> [] -> Forall2 (embeddable m) ks szs ->
  uniform_x ks (Nat.min (list_max (map k_dim ks)) D) ->
  exists b out res b' rs, from_complex_list ks D = Ok b /\ embed_partial o m b = Ok (out, res, b') /\ NoDup (map fst res) /\
    map fst res = List.concat (map (fun c => map (layer_key c) (seq 0 (Nat.min (n_pdim (en_net m)) (Nat.min (list_max (map k_dim ks)) D) + 1))) (seq 0 (length (n_convs (en_net m))))) ++
      map pool_key (seq 0 (length (n_dims (en_net m)))) ++ ["out"] /\
    Forall2 (alone (embed_partial o m) D) ks rs /\ forall key, dict_get key res = join (map (dict_get key) rs).
Proof.
  intros Hm Hne HE Hu. destruct (cwn_enet_ok o Hdiv _ m Hm) as [a Ha]. pose proof (map_fst_combine ks szs (Forall2_length HE)) as E.
  assert (Hq : combine ks szs <> []) by (intros X; rewrite X in E; cbn in E; congruence). pose proof (embeddable_pairs m ks szs HE) as HP.
  assert (HG : even m a D (combine ks szs)) by (unfold even; rewrite E; auto).
  destruct (generic_batch (embed_partial o m) D (embed_member m a D) (fun q => embeddable m (fst q) (snd q)) (even m a D)) with (qs := combine ks szs) as (b & out & res & b' & rs & H1 & H2 & H3 & H4 & H5); auto.
  - intros qs Hqs HU [G1 G2]. destruct (embed_partial_list m a D qs G1 Hqs HU G2) as (b & out & res & b' & A1 & A2 & A3 & _ & A5). exists b, out, res, b'. auto.
  - intros qs qs'. apply even_sub.
  - destruct HG as [G1 G2]. destruct (embed_partial_list m a D _ G1 Hq HP G2) as (b2 & out2 & res2 & b2' & A1 & A2 & A3 & A4 & A5).
    rewrite H1 in A1. inversion A1; subst b2. rewrite H2 in A2. inversion A2; subst res2. rewrite E in *. rewrite (enet_layers m a _ Ha) in A4.
    exists b, out, res, b', rs. auto 8.
Qed.
Theorem C74_embedding_loader (m : enet V) ks szs D chunks chunks' : cwn_enet o (Nat.min (list_max (map k_dim ks)) D) m -> Forall2 (embeddable m) ks szs ->
  uniform_x ks (Nat.min (list_max (map k_dim ks)) D) ->
  List.concat chunks = ks -> List.concat chunks' = ks -> Forall (fun c => c <> []) chunks -> Forall (fun c => c <> []) chunks' ->
  exists R R', collect (embed_partial o m) chunks D = Ok R /\ collect (embed_partial o m) chunks' D = Ok R' /\
    NoDup (map fst R) /\ NoDup (map fst R') /\ forall key, dict_get key R = dict_get key R'.
Proof.
  intros Hm HE Hu E E' N N'. destruct (cwn_enet_ok o Hdiv _ m Hm) as [a Ha]. pose proof (Forall2_length HE) as Hl.
  assert (X : forall ch, List.concat ch = ks -> Forall (fun c => c <> []) ch -> exists R, collect (embed_partial o m) ch D = Ok R /\ NoDup (map fst R) /\
     forall key, dict_get key R = join (map (fun q => embed_member m a D q key) (combine ks szs))).
  { intros ch Ec Nc. destruct (same_cut ks szs Hl ch Ec) as (cs & H1 & H2). rewrite <- H1, <- H2.
    apply (generic_collect (embed_partial o m) D (embed_member m a D) (fun q => embeddable m (fst q) (snd q)) (even m a D)); auto.
    - intros qs Hqs HU [G1 G2]. destruct (embed_partial_list m a D qs G1 Hqs HU G2) as (b & out & res & b' & A1 & A2 & A3 & _ & A5). exists b, out, res, b'. auto.
    - intros qs qs'. apply even_sub.
    - rewrite <- H1 in Nc. clear - Nc. induction cs as [|c cs IH]; [constructor|]. inversion Nc; subst. constructor; [intros ->; cbn in *; congruence|auto].
    - rewrite H2. now apply embeddable_pairs.
    - rewrite H2. unfold even. rewrite (map_fst_combine ks szs Hl). auto. }
  destruct (X chunks E N) as (R & A1 & A2 & A3). destruct (X chunks' E' N') as (R' & B1 & B2 & B3). exists R, R'. repeat split; auto. intros key. now rewrite A3, B3.
Qed.
End Props.

(** ** Examples: the house, a point and a path, one by one and together *)
Definition single_chunks : list (list (complex Z)) := map (fun k => [k]) trio.
Example C74_example : let get key r := match r with Ok R => dict_get key R | Err _ => None end in
  let one := collect (partial_forward Zops ex_net) single_chunks 2 in let all := collect (partial_forward Zops ex_net) [trio] 2 in
  map (fun key => get key one) [layer_key 0 0; layer_key 0 2; pool_key 0; "out"; layer_key 0 3] =
  map (fun key => get key all) [layer_key 0 0; layer_key 0 2; pool_key 0; "out"; layer_key 0 3] /\
  get (layer_key 0 2) all <> None /\ get (layer_key 0 3) all = None /\ layer_key 0 2 = "layer0_2" /\ pool_key 1 = "pool_1".
Proof. vm_compute. repeat split; try reflexivity. discriminate. Qed.
Example C74_hypotheses : exists R R', collect (partial_forward Zops ex_net) single_chunks 2 = Ok R /\ collect (partial_forward Zops ex_net) [trio] 2 = Ok R' /\
  NoDup (map fst R) /\ NoDup (map fst R') /\ forall key, dict_get key R = dict_get key R'.
Proof.
  destruct C06_hyps as (H1 & _ & H3 & H4 & H5 & H6).
  apply (C74_loader Zops Zops_div ex_net trio trio_sz 2); [exact H1|exact H4|exact H5|exact H6|reflexivity|reflexivity| |].
  - repeat (constructor; [discriminate|]). constructor.
  - constructor; [discriminate|constructor].
Qed.
Example C74_embedding_hypotheses : exists h R R', ex_house = Ok h /\ collect (embed_partial Zops ex_enet) [[h]; [h]] 2 = Ok R /\ collect (embed_partial Zops ex_enet) [[h; h]] 2 = Ok R' /\
  NoDup (map fst R) /\ NoDup (map fst R') /\ forall key, dict_get key R = dict_get key R'.
Proof.
  destruct (ring_embeddable Zops Z.eqb (ref_lib false) (ref_isos 5) (@rev _) RAdd house_x house (Some house_attr) 5 None 5
    false true false ex_enet (house_ok false None I) Zeqb_ok (fun _ => house_attr_ok) (fun _ H => ltac:(discriminate H))
    (match ex_house with Ok k => k | Err _ => mkComplexRec 0 [] None end)) as (H2 & (sz & Hsz) & _); [vm_compute; reflexivity|].
  set (h := match ex_house with Ok k => k | Err _ => _ end) in *.
  exists h.
  assert (HU : uniform_x [h; h] (Nat.min (list_max (map k_dim [h; h])) 2)).
  { intros d _. destruct (nth_error (k_cochains h) d) as [c|] eqn:E.
    - destruct (c_x c) eqn:Ex; [left|right]; intros k' c' [<-|[<-|[]]] Hc'; congruence.
    - left. intros k' c' [<-|[<-|[]]] Hc'; congruence. }
  destruct (C74_embedding_loader Zops Zops_div ex_enet [h; h] [sz; sz] 2 [[h]; [h]] [[h; h]]) as (R & R' & A1 & A2 & A3 & A4 & A5).
  - apply CE_sparse; auto; try discriminate; try (exists 0; simpl; auto; fail).
  - repeat (constructor; [exact Hsz|]). constructor.
  - exact HU.
  - reflexivity.
  - reflexivity.
  - repeat (constructor; [discriminate|]). constructor.
  - repeat (constructor; [discriminate|]). constructor.
  - exists R, R'. split; [vm_compute; reflexivity|]. auto.
Qed.

Print Assumptions C74_same_prediction.
Print Assumptions C74_keys.
Print Assumptions C74_batch.
Print Assumptions C74_loader.
Print Assumptions C74_embedding_same_prediction.
Print Assumptions C74_embedding_batch.
Print Assumptions C74_embedding_loader.
