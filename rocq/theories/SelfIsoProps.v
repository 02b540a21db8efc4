(** C75: the soundness test of the experiments on strongly regular graphs passes for every family. *)
From Coq Require Import String Ascii List Arith Lia ZArith Bool Permutation.
From Verif Require Import Base ScatterModel ScatterSpec ScatterProofs ComplexModel BatchSpec BatchSpec2 BatchProofs
  MPModel MPSpec MPProofs MPForward MPNets MPProps MPIso
  LiftModel LiftSpec LiftBase LiftProps LiftRing LiftRingProps LiftRingExamples LiftIso LiftInvariance
  PermModel PermProps PermLift LiftDataset DatasetModel DatasetProps CacheModel CacheProps RingNetProofs GraphNetProps.
From Verif Require GraphNetModel.
From Verif Require Import SelfIsoModel SelfIsoSpec SelfIsoProofs.
Import ListNotations.
Open Scope nat_scope.
Open Scope list_scope.
Notation agnostic := GraphNetModel.agnostic.
Notation agnostic_forward := GraphNetModel.agnostic_forward.

(** ** Networks that do not see the names of the cells *)
Section Nets.
Context {V : Type} (o : ops V) (Ho : ops_ok o).
Definition net_out (m : net V) (b : kbatch V) : result (list V) := let* r := net_forward o m b in Ok (fst r).

Lemma net_blind m : cwn_net o m -> blind_to_names (net_out m).
Proof.
  intros Hm ks ks' szs Hne W W' F F' Hp HI.
  destruct (C27_isomorphism_invariance o Ho m ks ks' szs 2 Hm Hne W W' F F' Hp HI) as (b & b' & out & bo & bo' & Eb & Eb' & E1 & E2).
  exists b, b', out. split; auto. split; auto. unfold net_out. rewrite E1, E2. cbn [bind fst]. split; auto. split; auto.
  destruct (cwn_net_ok o (div_0_1 _ Ho) m Hm) as [a Ha].
  destruct (forward_list o (div_0_1 _ Ho) m a ks szs 2 Ha Hne W F Hp) as (b1 & bo1 & Eb1 & E3).
  assert (b1 = b) by congruence. subst b1. rewrite E1 in E3. inversion E3. rewrite map_length, combine_length, (Forall2_length W). lia.
Qed.

Lemma iso_features (k k' : complex V) sz d : isomorphic sz k k' -> wf_complex k sz -> wf_complex k' sz ->
  has_features 2 k -> has_features 2 k' -> d <= 2 -> Permutation (content (attr c_x d k)) (content (attr c_x d k')).
Proof.
  intros [pi HI] W W' F F' Hd.
  assert (L : forall q : complex V, wf_complex q sz -> has_features 2 q -> length (content (attr c_x d q)) = sz d).
  { intros q Wq Fq. unfold attr. destruct (nth_error (k_cochains q) d) as [c|] eqn:Ec.
    - pose proof (wf_x _ _ _ _ (wfk_each _ _ Wq d c Ec)) as X. pose proof (Fq d c Hd Ec). destruct (c_x c); [exact X|congruence].
    - apply nth_error_None in Ec. rewrite (wfk_len _ _ Wq) in Ec. cbn. symmetry. apply (wfk_above _ _ Wq). lia. }
  assert (E : forall (l : list V), map Some l = map (nth_error l) (seq 0 (length l))).
  { induction l as [|a l IH]; auto. cbn [map length seq]. rewrite <- seq_shift, map_map. cbn [nth_error]. rewrite IH. reflexivity. }
  assert (P : Permutation (map Some (content (attr c_x d k))) (map Some (content (attr c_x d k')))).
  { rewrite !E, (L k W F), (L k' W' F').
    rewrite (map_ext_in (nth_error (content (attr c_x d k))) (fun i => nth_error (content (attr c_x d k')) (pi d i)) (seq 0 (sz d))).
    - rewrite <- (map_map (pi d)). apply Permutation_map. apply bij_perm.
      + intros i Hi. apply (iso_range _ _ _ _ HI); auto.
      + intros i j Hi Hj. apply (iso_inj _ _ _ _ HI); auto.
    - intros i Hi. apply in_seq in Hi. symmetry. apply (iso_x _ _ _ _ HI). lia. }
  apply (Permutation_map (fun v => match v with Some a => a | None => vzero o end)) in P. rewrite !map_map, !map_id in P. exact P.
Qed.

Lemma agnostic_blind (m : agnostic V) : blind_to_names (agnostic_forward o m).
Proof.
  intros ks ks' szs Hne W W' F F' Hp HI. pose proof (div_0_1 _ Ho) as Hdiv.
  assert (Hne' : ks' <> []).
  { intros ->. apply Forall2_length in W, W'. destruct ks, szs; simpl in *; congruence. }
  destruct (agnostic_batch o Hdiv m ks szs 2 Hne W F Hp) as (b & Eb & E1).
  destruct (agnostic_batch o Hdiv m ks' szs 2 Hne' W' F' Hp) as (b' & Eb' & E2).
  eexists b, b', _. split; [exact Eb|]. split; [exact Eb'|]. split; [exact E1|]. split.
  - rewrite E2. f_equal. clear b b' Eb Eb' E1 E2 Hne Hne'. revert ks' szs W W' F' Hp HI.
    induction ks as [|k ks IH]; intros ks' szs W W' F' Hp HI.
    + inversion W; subst. inversion W'; subst. reflexivity.
    + inversion W as [|? sz ? szs1 Wk W1]; subst. inversion W' as [|k' ? ks1 ? Wk' W1']; subst.
      inversion F as [|? ? Fk F1]; subst. inversion F' as [|? ? Fk' F1']; subst. inversion Hp as [|? ? H0 Hp1]; subst.
      inversion HI as [|? ? ? ? I1 I2]; subst. cbn [fst snd] in I1.
      cbn [combine map]. f_equal; [|apply IH; auto]. cbn [fst snd].
      destruct (C53_agnostic_features o Ho m k k' sz sz 2 Wk Wk' Fk Fk' H0 H0) as (b & b' & v & Eb & Eb' & G1 & G2).
      { intros d Hd. eapply iso_features; eauto. }
      destruct (agnostic_batch o Hdiv m [k] [sz] 2) as (b1 & Eb1 & G3); [discriminate|auto..].
      destruct (agnostic_batch o Hdiv m [k'] [sz] 2) as (b2 & Eb2 & G4); [discriminate|auto..].
      assert (b1 = b) by congruence. assert (b2 = b') by congruence. subst b1 b2.
      rewrite G1 in G3. rewrite G2 in G4. cbn [combine map fst snd] in G3, G4. inversion G3. inversion G4. congruence.
  - rewrite map_length, combine_length, (Forall2_length W). lia.
Qed.
End Nets.

(** ** The test *)
Section Test.
Context {V : Type} (o : ops V) (Ho : ops_ok o) (veqb : V -> V -> bool) (width : V -> nat).
Variables (lib : list (list nat) -> simplex_tree) (isos : list (nat * nat) -> nat -> list (list nat)) (so : list (list nat) -> list (list nat)).
Variables (one : V) (reduction : string -> reduce).
Variables (smul : Z -> V -> V) (coo_order : list (nat * nat) -> list (nat * nat)).
Variable draws : nat -> nat -> list (list nat).
Hypothesis veqb_ok : forall a b, veqb a b = true <-> a = b.
Hypothesis Hlib : good_lib lib.
Hypothesis Hisos : forall n, good_isos isos n.
Hypothesis Hso : good_set so.
Hypothesis HW : keeps_width width o.
Hypothesis smul0 : forall v, smul 0%Z v = vzero o.
Hypothesis smul1 : forall v, smul 1%Z v = v.
Hypothesis Hcoo : forall l, Permutation (coo_order l) l.
Variable g6 : string -> option (list (nat * list (nat * nat))).
Hypothesis Hg6 : forall family seed, g6 (permuted_name family seed) = None.
Notation reached := (reached o veqb width lib isos so one reduction smul coo_order draws g6).
Notation self_isomorphism := (self_isomorphism o veqb width lib isos so one reduction smul coo_order draws).

(** C75: from every state of the data directory that runs of the scripts lead to, the test of exp/test_sr.py passes for every
    family, seed and ring size, and the graphs and their dumped copies, whose nodes really are renamed, have the very same embeddings, one per graph.  The
    state it leaves is again such a state. *)
Theorem C75_self_isomorphism close forward s family ring init seed l :
  reached s -> word init -> 3 < ring -> g6 family = Some l -> family_of ring l -> (forall n es, In (n, es) l -> fair draws seed n) ->
  blind_to_names forward -> (forall v, close v v = true) ->
  exists e s', self_isomorphism close forward s family ring init seed = Ok (e, e, s') /\ length e = length l /\
    (exists copies, st_pkl s' (permuted_name family seed) = Some copies /\ Forall2 renamed_copy l copies) /\ reached s'.
Proof.
  intros R Hw Hr Hg HF Hfair HB Hc. destruct (reached_honest o veqb width lib isos so one reduction smul coo_order draws g6 s Hg6 R) as [HH G].
  destruct (self_iso_ok o Ho veqb width lib isos so one reduction smul coo_order draws veqb_ok Hlib Hisos Hso HW smul0 smul1 Hcoo
    close forward s family ring init seed l) as (e & s1 & s2 & s3 & ds & ds' & E1 & E2 & E3 & E4 & L & HCp); auto.
  { rewrite G. exact Hg. }
  exists e, s3. split; [exact E4|]. split; [exact L|]. split; [exact HCp|].
  eapply r_load; [|exact Hw|exact E3]. eapply r_load; [|exact Hw|exact E2]. eapply r_prepare; [exact R|exact Hw|exact E1].
Qed.

(** test_sparse_cin0_self_isomorphism, for every network of the repository and all weights. *)
Theorem C75_sparse_cin close m s family ring init seed l :
  cwn_net o m -> reached s -> word init -> 3 < ring -> g6 family = Some l -> family_of ring l ->
  (forall n es, In (n, es) l -> fair draws seed n) -> (forall v, close v v = true) ->
  exists e s', self_isomorphism close (net_out o m) s family ring init seed = Ok (e, e, s') /\ length e = length l /\
    (exists copies, st_pkl s' (permuted_name family seed) = Some copies /\ Forall2 renamed_copy l copies) /\ reached s'.
Proof. intros Hm. intros. apply C75_self_isomorphism; auto. apply net_blind; auto. Qed.

(** test_cwn_baseline_self_isomorphism, for all weights. *)
Theorem C75_baseline close (m : agnostic V) s family ring init seed l :
  reached s -> word init -> 3 < ring -> g6 family = Some l -> family_of ring l ->
  (forall n es, In (n, es) l -> fair draws seed n) -> (forall v, close v v = true) ->
  exists e s', self_isomorphism close (agnostic_forward o m) s family ring init seed = Ok (e, e, s') /\ length e = length l /\
    (exists copies, st_pkl s' (permuted_name family seed) = Some copies /\ Forall2 renamed_copy l copies) /\ reached s'.
Proof. intros. apply C75_self_isomorphism; auto. apply agnostic_blind; auto. Qed.

(** exp/evaluate_sr_cwn_emb_mag.py: the heading and the file name tell the ring size given, the magnitudes are those of ring
    size 6 whatever it is. *)
Theorem C75_ring_size_refuted forward magnitude s families baseline ring ring' name file name' file' res res' :
  magnitudes o veqb width lib isos so one reduction smul coo_order draws forward magnitude s families baseline ring = Ok (name, file, res) ->
  magnitudes o veqb width lib isos so one reduction smul coo_order draws forward magnitude s families baseline ring' = Ok (name', file', res') ->
  ring <> ring' -> name <> name' /\ file <> file' /\ res = res'.
Proof.
  unfold magnitudes. intros E E' Hne. apply bind_ok in E as (_ & _ & E). apply bind_ok in E' as (_ & _ & E').
  destruct (foldM _ _ _) as [r|]; [|discriminate]. cbn [bind] in E, E'. inversion E; inversion E'; subst. split; [|split; [|reflexivity]]; intros H; apply Hne, dec_inj.
  - destruct baseline; cbn in H; injection H as H; eapply app_cancel_r; eauto.
  - destruct baseline; cbn in H; injection H as H; eapply app_cancel_r; eauto.
Qed.
End Test.

(** ** Examples *)
Section Examples.
Open Scope string_scope.
Definition all_isos (edges : list (nat * nat)) (k : nat) : list (list nat) := ref_isos (S (list_max (map fst edges ++ map snd edges)%list)) edges k.
Lemma all_isos_ok n : good_isos all_isos n.
Proof.
  intros edges k _. apply ref_isos_ok. intros u v H.
  pose proof (proj1 (list_max_le (map fst edges ++ map snd edges)%list _) (le_n _)) as F. rewrite Forall_forall in F.
  assert (In u (map fst edges ++ map snd edges)%list) by (apply in_app_iff; left; apply (in_map fst) in H; exact H).
  assert (In v (map fst edges ++ map snd edges)%list) by (apply in_app_iff; right; apply (in_map snd) in H; exact H).
  split; apply le_n_S; apply F; auto.
Qed.
(** The square and the square with a chord and a tail, with every edge once. *)
Definition small : list (nat * list (nat * nat)) := [(4, [(0, 1); (1, 2); (2, 3); (3, 0)]); (5, [(0, 1); (1, 2); (2, 3); (3, 0); (0, 2); (4, 3)])].
Definition tree : list (nat * list (nat * nat)) := [(3, [(0, 1); (1, 2)])].
Definition files (name : string) : option (list (nat * list (nat * nat))) :=
  if name =? "small" then Some small else if name =? "tree" then Some tree else None.
Definition turns (seed n : nat) : list (list nat) := [seq 0 n; map (fun i => (i + S seed) mod n) (seq 0 n); rev (seq 0 n)].
Lemma small_ok : family_of 4 small.
Proof.
  split; [discriminate|]. apply Forall_cons; [|apply Forall_cons; [|apply Forall_nil]]; (split;
    [intros u v H; simpl in H; repeat (destruct H as [H|H]; [inversion H; subst; simpl; lia|]); destruct H|]).
  - exists [0; 1; 2; 3]. split; [apply cycleb_ok; vm_compute; reflexivity|simpl; lia].
  - exists [0; 1; 2]. split; [apply cycleb_ok; vm_compute; reflexivity|simpl; lia].
Qed.
Lemma turns_fair seed n : 0 < n -> fair turns seed n.
Proof.
  intros Hn. split; [|exists (rev (seq 0 n)); split; [right; right; left; reflexivity|]].
  - apply Forall_cons; [auto|]. apply Forall_cons; [|apply Forall_cons; [apply Permutation_sym, Permutation_rev|apply Forall_nil]].
    apply bij_perm.
    + intros i _. apply Nat.mod_upper_bound. lia.
    + intros i j Hi Hj E. 
      assert (G : forall a b, a <= b -> b < n -> (a + S seed) mod n = (b + S seed) mod n -> a = b).
      { intros a b Hab Hb Eab. pose proof (Nat.div_mod (a + S seed) n ltac:(lia)). pose proof (Nat.div_mod (b + S seed) n ltac:(lia)).
        assert (b - a = n * ((b + S seed) / n - (a + S seed) / n)) by (rewrite Nat.mul_sub_distr_l; lia).
        destruct ((b + S seed) / n - (a + S seed) / n) as [|q]; [lia|]. rewrite Nat.mul_succ_r in H1. lia. }
      destruct (Nat.le_ge_cases i j); [apply G; auto|symmetry; apply G; auto].
  - intros H1 E. apply (f_equal (fun l => hd 0 l)) in E. destruct n as [|[|n]]; try lia.
    rewrite seq_S, rev_app_distr in E. cbn in E. lia.
Qed.
Lemma files_ok family seed : files (permuted_name family seed) = None.
Proof.
  unfold files, permuted_name.
  assert (G : forall w, all (fun c => negb (Ascii.eqb c "p")) w = true -> (family ++ "p" ++ dec seed =? w) = false).
  { intros w Hw. apply String.eqb_neq. intros <-. rewrite all_app in Hw. apply andb_true_iff in Hw as [_ Hw]. discriminate Hw. }
  rewrite !G; reflexivity.
Qed.
Definition list_max_Z (e : list Z) : Z := fold_right Z.max 0%Z e.
Definition start : store Z := mkStore files (fun _ => None) (fun _ => None).
Notation test := (self_isomorphism Zops Z.eqb (fun _ => 1) (any_lib true) all_isos (@rev _) 1%Z (fun _ => RAdd) Z.mul (@rev _) turns Z.eqb).

Example C75_applies : exists e s', test (net_out Zops ex_net) start "small" 4 "sum" 43 = Ok (e, e, s') /\ length e = 2.
Proof.
  destruct (C75_sparse_cin Zops Zops_ok Z.eqb (fun _ => 1) (any_lib true) all_isos (@rev _) 1%Z (fun _ => RAdd) Z.mul (@rev _) turns
    Zeqb_ok (any_lib_ok true) all_isos_ok (fun l _ => Permutation_sym (Permutation_rev l)) one_ok Z.mul_0_l Z.mul_1_l (fun l => Permutation_sym (Permutation_rev l))
    files files_ok Z.eqb ex_net start "small" 4 "sum" 43 small (proj1 C06_hyps)) as (e & s' & E & L & _ & _).
  - apply r_start.
  - reflexivity.
  - lia.
  - reflexivity.
  - exact small_ok.
  - intros n es H. apply turns_fair. simpl in H. repeat (destruct H as [H|H]; [inversion H; lia|]). destruct H.
  - intros v. apply Z.eqb_refl.
  - exists e, s'. auto.
Qed.
Example C75_ex_run : match test (net_out Zops ex_net) start "small" 4 "sum" 43 with
  | Ok (e, e', s) => Ok (e, e', st_pkl s "smallp43") | Err x => Err x end =
  Ok ([21916; 27685]%Z, [21916; 27685]%Z, Some
    [([(3, 2); (3, 0); (2, 3); (2, 1); (1, 2); (1, 0); (0, 3); (0, 1)], 4);
     ([(4, 3); (4, 1); (4, 0); (3, 4); (3, 2); (3, 1); (2, 3); (2, 1); (1, 4); (1, 3); (1, 2); (0, 4)], 5)]).
Proof. vm_compute. reflexivity. Qed.
Example C75_ex_baseline : match test (agnostic_forward Zops anet) start "small" 4 "sum" 43 with Ok (e, e', _) => Ok (e, e') | Err x => Err x end =
  Ok ([60; 51]%Z, [60; 51]%Z).
Proof. vm_compute. reflexivity. Qed.
(** A family without rings: there are no two-cells whose features could be made double. *)
Example C75_ex_tree : test (net_out Zops ex_net) start "tree" 4 "sum" 43 = Err AttributeError.
Proof. vm_compute. reflexivity. Qed.
Example C75_ex_magnitudes : exists res,
  magnitudes Zops Z.eqb (fun _ => 1) (any_lib true) all_isos (@rev _) 1%Z (fun _ => RAdd) Z.mul (@rev _) turns (fun _ => net_out Zops ex_net)
    (fun e => list_max_Z e) start ["small"] false 4 = Ok ("Model: CIN(4)", "sr-4.txt", res) /\
  magnitudes Zops Z.eqb (fun _ => 1) (any_lib true) all_isos (@rev _) 1%Z (fun _ => RAdd) Z.mul (@rev _) turns (fun _ => net_out Zops ex_net)
    (fun e => list_max_Z e) start ["small"] false 5 = Ok ("Model: CIN(5)", "sr-5.txt", res) /\ length res = 5.
Proof. eexists. split; [vm_compute; reflexivity|]. split; vm_compute; reflexivity. Qed.
End Examples.

Print Assumptions C75_self_isomorphism.
Print Assumptions C75_sparse_cin.
Print Assumptions C75_baseline.
Print Assumptions C75_ring_size_refuted.
