(** The networks of mp/models.py implement architectures of the specification; representation of
    single complexes; dependence of the skeleton on the truncation. *)
From Coq Require Import List Arith Lia ZArith Bool.
From Verif Require Import Base ScatterModel ScatterSpec ScatterProofs ComplexModel BatchSpec BatchSpec2
  BatchProofs BatchProofs2 MPModel MPSpec MPProofs MPEngine MPBatch MPForward.
Import ListNotations.

Section Nets.
Context {V : Type} (o : ops V).
Hypothesis Hdiv : vdivn o (vzero o) 1 = vzero o.
Notation complex := (complex V).

Definition sparse_layers (layers : list (nat -> sparse_level V)) : list (layer V) :=
  map (fun l => mkLayer (fun d => sparse_rule o (l d)) None) layers.
Definition cinpp_layers (layers : list (nat -> cinpp_level V)) : list (layer V) :=
  map (fun l => mkLayer (fun d => cinpp_rule o (l d)) None) layers.
Definition cin_layers (layers : list (nat -> cin_level V)) : list (layer V) :=
  map (fun l => mkLayer (fun d => cin_rule o (l d)) None) layers.
Definition edge_layers (layers : list (cin_level V * cin_level V)) (tops : list (option (V -> V)))
  : list (layer V) :=
  zipw (fun l t => mkLayer (fun d => cin_rule o (if d =? 0 then fst l else snd l)) t) layers tops.

Lemma layers_ok {L : Type} (max_dim : nat) (down : bool) (lev : L -> nat -> level V) (rul : L -> nat -> rule V) ls :
  (forall l d, implements o (lev l d) (rul l d) true down) ->
  Forall2 (layer_ok o max_dim max_dim true down)
    (map (fun l => (map (fun d => lev l d) (seq 0 (max_dim + 1)), None)) ls)
    (map (fun l => mkLayer (rul l) None) ls).
Proof.
  intros H. induction ls as [|l ls IH]; simpl; constructor; auto.
  split; [|split]; simpl; auto; [|congruence].
  intros d Hd. exists (lev l d). rewrite nth_error_map_seq.
  destruct (Nat.ltb_spec d (max_dim + 1)); [|lia]. split; auto.
  unfold cob_visible. rewrite orb_true_r. apply H.
Qed.

Definition sparse_arch max_dim layers jump pool readout_dims lin1 mean lin2 : arch V :=
  mkArch max_dim true (sparse_layers layers) jump pool
    (filter (fun d => d <=? max_dim) readout_dims) lin1 mean lin2.
Definition cinpp_arch max_dim layers jump pool readout_dims lin1 mean lin2 : arch V :=
  mkArch max_dim true (cinpp_layers layers) jump pool
    (filter (fun d => d <=? max_dim) readout_dims) lin1 mean lin2.
Definition cin0_arch max_dim layers jump pool head : arch V :=
  mkArch max_dim true (cin_layers layers) jump pool (seq 0 (max_dim + 1)) (fun _ v => v) false head.
Definition edge_arch top layers tops jump pool head : arch V :=
  mkArch 1 top (edge_layers layers tops) jump pool (seq 0 2) (fun _ v => v) false head.
Definition dummy_arch max_dim n pool lin : arch V :=
  mkArch 2 true (repeat (mkLayer (fun _ => dummy_rule o false true) None) n) None pool
    (seq 0 (max_dim + 1)) (fun _ v => v) false lin.

Lemma filter_le_nonempty (dims : list nat) md :
  (exists d, In d dims /\ d <= md) -> filter (fun d => d <=? md) dims <> [].
Proof.
  intros (d & Hd & Hle) E. assert (In d []) as [].
  rewrite <- E. apply filter_In. split; auto. apply Nat.leb_le; auto.
Qed.

Lemma map_ne {A B} (f : A -> B) l : l <> [] -> map f l <> [].
Proof. destruct l; simpl; congruence. Qed.

Lemma sparse_ok max_dim layers jump pool dims lin1 mean lin2 :
  layers <> [] -> (exists d, In d dims /\ d <= max_dim) ->
  net_ok o (sparse_cin o max_dim layers jump pool dims lin1 mean lin2)
           (sparse_arch max_dim layers jump pool dims lin1 mean lin2).
Proof.
  intros Hl Hd. split; simpl; auto.
  - apply (layers_ok max_dim false (fun l d => sparse_forward o (l d)) (fun l d => sparse_rule o (l d))).
    intros. apply sparse_implements; auto.
  - apply map_ne; auto.
  - apply filter_le_nonempty; auto.
  - intros d H. apply filter_In in H as [_ H]. apply Nat.leb_le; auto.
Qed.

Lemma cinpp_ok max_dim layers jump pool dims lin1 mean lin2 :
  layers <> [] -> (exists d, In d dims /\ d <= max_dim) ->
  net_ok o (cinpp o max_dim layers jump pool dims lin1 mean lin2)
           (cinpp_arch max_dim layers jump pool dims lin1 mean lin2).
Proof.
  intros Hl Hd. split; simpl; auto.
  - apply (layers_ok max_dim false (fun l d => cinpp_forward o (l d)) (fun l d => cinpp_rule o (l d))).
    intros. apply cinpp_implements; auto.
  - apply map_ne; auto.
  - apply filter_le_nonempty; auto.
  - intros d H. apply filter_In in H as [_ H]. apply Nat.leb_le; auto.
Qed.

Lemma seq_ne n : seq 0 (n + 1) <> [].
Proof. rewrite Nat.add_1_r. discriminate. Qed.

Lemma cin0_ok max_dim layers jump pool head :
  layers <> [] ->
  net_ok o (cin0 o max_dim layers jump pool head) (cin0_arch max_dim layers jump pool head).
Proof.
  intros Hl. split; simpl; auto.
  - apply (layers_ok max_dim true (fun l d => cin_forward o (l d)) (fun l d => cin_rule o (l d))).
    intros. apply cin_implements; auto.
  - apply map_ne; auto.
  - apply seq_ne.
  - intros d H. apply in_seq in H. lia.
Qed.

Lemma edge_ok top layers tops jump pool head :
  layers <> [] -> length layers = length tops ->
  net_ok o (edge_cin0 o top layers tops jump pool head) (edge_arch top layers tops jump pool head).
Proof.
  intros Hl Hlen. split; simpl; auto; try discriminate.
  - unfold edge_layers. clear Hl. revert tops Hlen.
    induction layers as [|[l0 l1] layers IH]; intros [|t tops] Hlen; simpl in Hlen; try discriminate.
    + constructor.
    + unfold zipw in *. simpl. constructor.
      * split; [|split]; simpl; auto. intros [|[|d]] Hd; [| |lia]; simpl; eexists; (split; [reflexivity|]);
        apply cin_implements; auto.
      * apply IH. lia.
  - unfold edge_layers, zipw. destruct layers, tops; simpl in *; congruence.
  - intros d H. lia.
Qed.

Lemma dummy_ok max_dim n pool lin :
  2 <= max_dim -> 0 < n -> net_ok o (dummy_net o max_dim n pool lin) (dummy_arch max_dim n pool lin).
Proof.
  intros Hm Hn. split; simpl; auto.
  - clear Hn. induction n as [|n IH]; simpl; constructor; auto.
    split; [|split]; simpl; auto; [|congruence]. intros d Hd.
    exists (dummy_forward o false true). rewrite nth_error_map_seq.
    destruct (Nat.ltb_spec d (max_dim + 1)); [|lia]. split; auto.
    unfold cob_visible. rewrite orb_true_r. apply dummy_implements; auto.
  - destruct n; [lia|discriminate].
  - apply seq_ne.
  - intros d H. apply in_seq in H. lia.
Qed.

(** ** A single well-formed complex, truncated *)
Lemma attr_truncate {T} (get : cochain V -> option (list T)) D (k : complex) d :
  d <= D -> attr get d (truncate D k) = attr get d k.
Proof.
  intros Hd. unfold attr, truncate. simpl.
  replace (nth_error (firstn (D + 1) (k_cochains k)) d) with (nth_error (k_cochains k) d); auto.
  symmetry. destruct (Nat.lt_ge_cases d (length (k_cochains k))) as [H|H].
  - rewrite <- (firstn_skipn (D + 1) (k_cochains k)) at 2. rewrite nth_error_app1; auto.
    rewrite firstn_length. lia.
  - rewrite (proj2 (nth_error_None (k_cochains k) d) H). apply nth_error_None. rewrite firstn_length. lia.
Qed.

Lemma nth_truncate D (k : complex) d c :
  nth_error (k_cochains (truncate D k)) d = Some c ->
  d <= D /\ nth_error (k_cochains k) d = Some c.
Proof.
  unfold truncate; simpl. intros H.
  assert (Hl : d < length (firstn (D + 1) (k_cochains k))) by (apply nth_error_Some; congruence).
  split; [rewrite firstn_length in Hl; lia|].
  rewrite <- (firstn_skipn (D + 1) (k_cochains k)). rewrite nth_error_app1; auto.
Qed.

Lemma truncate_represents D (k : complex) sz :
  wf_complex k sz -> has_features D k ->
  represents (truncate D k) (skel_of D k sz) (feats_of o k).
Proof.
  intros W HF. split.
  - reflexivity.
  - unfold truncate; simpl. rewrite firstn_length, (wfk_len _ _ W). lia.
  - intros d c Hc. apply nth_truncate in Hc as [Hd Hc].
    assert (Hdk : d <= k_dim k).
    { assert (d < length (k_cochains k)) by (apply nth_error_Some; congruence). rewrite (wfk_len _ _ W) in *; lia. }
    pose proof (wfk_each _ _ W _ _ Hc) as Wc.
    assert (Ha : forall T (get : cochain V -> option (list T)), attr get d k = get c)
      by (intros; unfold attr; rewrite Hc; auto).
    pose proof (HF d c Hd Hc) as Hx. pose proof (wf_x _ _ _ _ Wc) as Hxl.
    destruct (c_x c) as [x|] eqn:Ex; [|congruence]. split.
    + rewrite skel_of_n by auto. apply wf_num_cells with (1 := Wc).
    + rewrite skel_of_n by auto. rewrite Ex. f_equal. unfold feats_of. rewrite Ha, Ex. simpl.
      rewrite <- Hxl. symmetry. apply map_nth_seq.
    + simpl. intros Hlt. pose proof (wf_upper _ _ _ _ Wc) as Hu. rewrite !Ha.
      destruct (Nat.ltb_spec d (Nat.min (k_dim k) D)); [|lia].
      destruct (c_upper c) as [u|]; auto. destruct Hu as (_ & _ & s & -> & Hl & _). simpl.
      rewrite combine_fst by auto. split; auto. f_equal.
      clear -Hl. revert u Hl; induction s as [|a s IH]; intros [|b u] Hl; simpl in *; try discriminate; auto. f_equal; auto.
    + rewrite skel_of_low by auto. unfold lows. rewrite !Ha. pose proof (wf_lower _ _ _ _ Wc) as Hu.
      destruct (c_lower c) as [u|]; auto. destruct Hu as (Hd0 & _ & s & -> & Hl & _). simpl.
      rewrite combine_fst by auto. split; auto. split; auto. f_equal.
      clear -Hl. revert u Hl; induction s as [|a s IH]; intros [|b u] Hl; simpl in *; try discriminate; auto. f_equal; auto.
    + rewrite skel_of_bnd by auto. unfold bnds. rewrite Ha. pose proof (wf_bidx _ _ _ _ Wc) as Hu.
      destruct (c_bidx c) as [u|]; auto. destruct Hu. auto.
Qed.

Lemma skel_of_min D D' (k : complex) sz :
  Nat.min (k_dim k) D = Nat.min (k_dim k) D' -> skel_of D k sz = skel_of D' k sz.
Proof. unfold skel_of. intros ->. reflexivity. Qed.

(** ** Predictions of batches made by [from_complex_list] *)
Lemma in_list_max (l : list nat) x : In x l -> x <= list_max l.
Proof. intros. apply list_max_in_le; auto. Qed.

Lemma forward_list (m : net V) (a : arch V) ks szs Dm :
  net_ok o m a -> ks <> [] -> Forall2 wf_complex ks szs ->
  Forall (has_features Dm) ks -> Forall (fun sz : nat -> nat => 0 < sz 0) szs ->
  exists b b', from_complex_list ks Dm = Ok b /\
    net_forward o m b =
      Ok (map (fun q => predict o a (skel_of Dm (fst q) (snd q)) (feats_of o (fst q))) (combine ks szs), b').
Proof.
  intros HN Hne HW HF Hpos. set (D := Nat.min (list_max (map k_dim ks)) Dm).
  destruct (from_complex_list_is_batch ks szs Dm Hne HW) as (b & Hb & HB & _).
  { intros d Hd. left. intros k c Hk Hc. rewrite Forall_forall in HF. apply (HF k Hk d c); auto. lia. }
  fold D in HB.
  destruct (forward_batch o Hdiv m a ks szs D b HN Hne HW HB) as (b' & Hb').
  - intros d Hd. assert (Hin : In (list_max (map k_dim ks)) (map k_dim ks)).
    { apply list_max_exists. destruct ks; [congruence|discriminate]. }
    apply in_map_iff in Hin as (k & Ek & Hk). exists k; split; auto. unfold D in Hd. lia.
  - rewrite Forall_forall in *. intros k Hk d c Hd Hc. apply (HF k Hk d c); auto. unfold D in Hd; lia.
  - auto.
  - exists b, b'. split; auto. rewrite Hb'. f_equal. f_equal. apply map_ext_in.
    intros [k sz] Hin. apply in_combine_l in Hin. simpl. f_equal. apply skel_of_min.
    assert (k_dim k <= list_max (map k_dim ks)) by (apply in_list_max, in_map; auto).
    unfold D. lia.
Qed.

End Nets.
