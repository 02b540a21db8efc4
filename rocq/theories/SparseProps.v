(** C80: sparse adjacency matrices. *)
From Coq Require Import List Arith Lia ZArith Bool Permutation.
From Verif Require Import Base ScatterModel ScatterSpec ScatterProofs ComplexModel MPModel CollectModel.
From Verif Require Import SparseModel SparseSpec.
Import ListNotations.
Open Scope nat_scope.

Fixpoint ascending (l : list nat) : Prop := match l with [] => True | i :: l' => (forall j, In j l' -> i <= j) /\ ascending l' end.
Definition below (r : nat) (l : list nat) : nat := length (filter (fun i => i <? r) l).
Lemma below_0 r l : (forall i, In i l -> r <= i) -> below r l = 0.
Proof. unfold below. induction l as [|i l IH]; intros H; [reflexivity|]. cbn [filter]. destruct (Nat.ltb_spec i r) as [L|L]; [specialize (H i (or_introl eq_refl)); lia|]. apply IH. intros; apply H; now right. Qed.
Lemma below_cons r i l : below r (i :: l) = (if i <? r then 1 else 0) + below r l.
Proof. unfold below. cbn [filter]. destruct (i <? r); reflexivity. Qed.
Lemma messages_none {V} r idx (src : list V) : (forall i, In i idx -> r < i) -> messages_to r idx src = [].
Proof.
  revert src. induction idx as [|i idx IH]; intros [|v src] H; try reflexivity. unfold messages_to. cbn [combine filter fst].
  destruct (Nat.eqb_spec i r) as [->|N]; [specialize (H r (or_introl eq_refl)); lia|]. apply (IH src). intros; apply H; now right.
Qed.
Lemma head_slice {V} r idx (src : list V) : length idx = length src -> ascending idx -> (forall i, In i idx -> r <= i) -> firstn (below (S r) idx) src = messages_to r idx src.
Proof.
  revert src. induction idx as [|i idx IH]; intros [|v src] L A H; try discriminate L; [reflexivity|]. destruct A as [A1 A2]. rewrite below_cons.
  destruct (Nat.ltb_spec i (S r)) as [Q|Q].
  - assert (i = r) as -> by (specialize (H i (or_introl eq_refl)); lia). cbn [firstn plus]. unfold messages_to. cbn [combine filter fst]. rewrite Nat.eqb_refl. cbn [map snd].
    f_equal. apply IH; auto.
  - rewrite below_0; [|intros j Hj; specialize (A1 j Hj); lia]. cbn [firstn plus]. symmetry. apply messages_none. intros j [<-|Hj]; [lia|]. specialize (A1 j Hj). lia.
Qed.
Lemma slice_messages {V} r idx (src : list V) : length idx = length src -> ascending idx ->
  firstn (below (S r) idx - below r idx) (skipn (below r idx) src) = messages_to r idx src.
Proof.
  revert src. induction idx as [|i idx IH]; intros src L A.
  - destruct src; [|discriminate L]. reflexivity.
  - destruct src as [|v src]; [discriminate L|]. destruct (Nat.ltb_spec i r) as [Q|Q].
    + rewrite !below_cons. replace (i <? r) with true by (symmetry; apply Nat.ltb_lt; exact Q). replace (i <? S r) with true by (symmetry; apply Nat.ltb_lt; lia).
      cbn [plus skipn Nat.sub]. unfold messages_to. cbn [combine filter fst]. destruct (Nat.eqb_spec i r); [lia|]. apply IH; [cbn in L; lia|apply A].
    + assert (H : forall j, In j (i :: idx) -> r <= j) by (intros j [<-|Hj]; [exact Q|destruct A as [A _]; specialize (A j Hj); lia]).
      rewrite (below_0 r) by exact H. cbn [skipn]. rewrite Nat.sub_0_r. apply head_slice; auto.
Qed.
Lemma pairs_of_ptr {B} (f : nat -> B) n k : combine (map f (seq k (S n))) (tl (map f (seq k (S n)))) = map (fun r => (f r, f (S r))) (seq k n).
Proof.
  revert k. induction n as [|n IH]; intros k; [reflexivity|]. specialize (IH (S k)). cbn [seq map tl combine] in *. f_equal. exact IH.
Qed.
Section Proofs.
Context {V : Type} (o : ops V).
Hypothesis Ho : ops_ok o.
Lemma reduce_slice_rows r l : reduce_slice o r l = reduce_rows o r l.
Proof. destruct r; try reflexivity; destruct l as [|v l]; try reflexivity; cbn; rewrite fold_opt_step; reflexivity. Qed.
Lemma segment_scatter r (s : sparse V) out : length out = length (s_entries s) -> ascending (sp_row s) -> Forall (fun i => i < s_size0 s) (sp_row s) ->
  scatter o r (Some (s_size0 s)) (sp_row s) out = Ok (segment_csr o r out (sp_rowptr s)).
Proof.
  intros L A F. assert (L' : length (sp_row s) = length out) by (unfold sp_row; rewrite map_length; auto).
  rewrite scatter_correct by auto. f_equal. unfold segment_csr, sp_rowptr. fold (below).
  change (map (fun r0 => length (filter (fun i => i <? r0) (sp_row s))) (seq 0 (S (s_size0 s)))) with (map (fun r0 => below r0 (sp_row s)) (seq 0 (S (s_size0 s)))).
  rewrite pairs_of_ptr, map_map. apply map_ext. intros i. cbn [fst snd]. rewrite reduce_slice_rows. f_equal. symmetry. apply slice_messages; auto.
Qed.
Lemma rows_ascending (s : sparse V) rows cols ix attr : matrix_of s rows cols ix attr -> ascending (sp_row s) /\ Forall (fun i => i < s_size0 s) (sp_row s).
Proof.
  intros (H0 & H1 & H2 & H3 & _). split.
  - unfold sp_row. clear H2. revert H3. induction (s_entries s) as [|e l IH]; intros H; cbn [map ascending]; [exact I|]. split.
    + intros j Hj. apply in_map_iff in Hj as (f & <- & Hf). apply In_nth_error in Hf as [k Hk]. apply (H 0 (S k) e f); [lia|reflexivity|exact Hk].
    + apply IH. intros k m e' f Hkm He Hf. apply (H (S k) (S m)); [lia|exact He|exact Hf].
  - apply Forall_forall. intros i Hi. apply in_map_iff in Hi as (e & <- & He). rewrite H0. apply H2. exact He.
Qed.
Lemma combine_maps {A B C} (f : A -> B) (g : A -> C) l : combine (map f l) (map g l) = map (fun a => (f a, g a)) l.
Proof. induction l as [|a l IH]; [reflexivity|]. cbn. now rewrite IH. Qed.
Lemma combine_zipw {A B C D E} (h : A -> E) (g : A -> B) (f : B -> C -> D) l v : combine (map h l) (zipw f (map g l) v) = map (fun p => (h (fst p), f (g (fst p)) (snd p))) (combine l v).
Proof. unfold zipw. revert v. induction l as [|a l IH]; intros [|c v]; cbn; try reflexivity. f_equal. apply IH. Qed.
Lemma zipw_len {A B C} (f : A -> B -> C) a b : length a = length b -> length (zipw f a b) = length a.
Proof. intros H. unfold zipw. rewrite map_length, combine_length. lia. Qed.
(** The messages of the matrix are those of the index in another order. *)
Lemma messages_matrix m (s : sparse V) rows (data : list V) ix attr : matrix_of s rows (length data) ix attr ->
  (exists e, apply_msg m (map (fun i => nth i data (vzero o)) (sp_col s)) (s_value s) = Err e /\ apply_msg m (map (fun i => nth i data (vzero o)) (map fst ix)) attr = Err e) \/
  (exists out out', apply_msg m (map (fun i => nth i data (vzero o)) (sp_col s)) (s_value s) = Ok out /\ apply_msg m (map (fun i => nth i data (vzero o)) (map fst ix)) attr = Ok out' /\
     length out = length (s_entries s) /\ length out' = length ix /\ Permutation (combine (sp_row s) out) (combine (map snd ix) out')).
Proof.
  intros (H0 & H1 & H2 & H3 & H4). set (d := fun i => nth i data (vzero o)).
  assert (P : Permutation (map (fun e => (snd e, fst e)) (s_entries s)) ix).
  { destruct (s_value s) as [v|], attr as [a|]; try contradiction; [|exact H4]. destruct H4 as (L1 & L2 & P). apply (Permutation_map fst) in P. rewrite !combine_fst in P; [exact P|auto|rewrite map_length; auto]. }
  assert (F : forall g : V -> V, exists out out', Ok (map g (map d (sp_col s))) = Ok out /\ Ok (map g (map d (map fst ix))) = Ok out' /\ length out = length (s_entries s) /\ length out' = length ix /\ Permutation (combine (sp_row s) out) (combine (map snd ix) out')).
  { intros g. do 2 eexists. split; [reflexivity|]. split; [reflexivity|]. unfold sp_col, sp_row. rewrite !map_length. split; [reflexivity|]. split; [reflexivity|].
    rewrite !map_map, !combine_maps. rewrite <- P, map_map. cbn [fst snd]. reflexivity. }
  assert (C : forall f, match s_value s, attr with Some v, Some a => exists out out', zip_checked f (map d (sp_col s)) v = Ok out /\ zip_checked f (map d (map fst ix)) a = Ok out' /\ length out = length (s_entries s) /\ length out' = length ix /\ Permutation (combine (sp_row s) out) (combine (map snd ix) out') | _, _ => True end).
  { intros f. destruct (s_value s) as [v|], attr as [a|]; auto. destruct H4 as (L1 & L2 & Q). unfold zip_checked, sp_col, sp_row. rewrite !map_length, L1, L2, !Nat.eqb_refl.
    do 2 eexists. split; [reflexivity|]. split; [reflexivity|]. rewrite !zipw_len by (rewrite !map_length; auto). rewrite !map_length. split; [reflexivity|]. split; [reflexivity|].
    rewrite !map_map, !combine_zipw. apply (Permutation_map (fun p => (snd (fst p), f (d (fst (fst p))) (snd p)))) in Q. rewrite <- Q.
    clear -V. generalize (s_entries s) as l. intros l. revert v. induction l as [|e l IH]; intros [|w v]; try reflexivity. cbn [map combine fst snd]. constructor. apply IH. }
  destruct m as [f|f|g f]; cbn [apply_msg].
  - right. apply F.
  - specialize (C f). destruct (s_value s), attr; try contradiction; [right; exact C|left; eauto].
  - specialize (C f). destruct (s_value s), attr; try contradiction; [right; exact C|right; apply F].
Qed.
Lemma sparse_messages m r (s : sparse V) x data ix attr kw : matrix_of s (length x) (length x) ix attr -> length data = length x ->
  message_and_aggregate_adj o true m r (ASparse s) (Some (s_size1 s), Some (s_size0 s)) x data kw = message_and_aggregate o m r ix data attr (length x).
Proof.
  intros M L. destruct (rows_ascending _ _ _ _ _ M) as [A F]. pose proof M as (H0 & H1 & H2 & H3 & H4). unfold message_and_aggregate_adj, message_and_aggregate, set_size, size_at.
  cbn [fst snd Nat.eqb]. rewrite H1, Nat.eqb_refl. cbn [bind lift_senders].
  assert (P : Permutation (map (fun e => (snd e, fst e)) (s_entries s)) ix).
  { destruct (s_value s) as [v|], attr as [a|]; try contradiction; [|exact H4]. destruct H4 as (L1 & L2 & P). apply (Permutation_map fst) in P. rewrite !combine_fst in P; [exact P|auto|rewrite map_length; auto]. }
  rewrite (index_select_nth data (sp_col s) (vzero o)), (index_select_nth data (map fst ix) (vzero o)).
  2: { apply Forall_forall. intros i Hi. apply in_map_iff in Hi as (e & <- & He). apply (Permutation_in _ (Permutation_sym P)) in He. apply in_map_iff in He as (f & <- & Hf). cbn. rewrite L. apply H2. exact Hf. }
  2: { apply Forall_forall. intros i Hi. apply in_map_iff in Hi as (e & <- & He). rewrite L. apply H2. exact He. }
  cbn [bind]. rewrite <- L in M at 2. destruct (messages_matrix m s (length x) data ix attr M) as [(e & E1 & E2)|(out & out' & E1 & E2 & L1 & L2 & Q)]; rewrite E1, E2; cbn [bind]; [reflexivity|].
  rewrite <- (segment_scatter r s out L1 A F), H0. apply scatter_cols_perm; auto; [unfold sp_row; rewrite map_length; auto|rewrite map_length; auto|]. rewrite <- H0. exact F.
Qed.
Lemma sparse_messages' m r (s : sparse V) x data ix attr kw : matrix_of s (length x) (length x) ix attr -> length data = length x ->
  message_and_aggregate_adj o true m r (ASparse s) (Some (length x), Some (length x)) x data kw = message_and_aggregate o m r ix data attr (length x).
Proof. intros M L. rewrite <- (sparse_messages m r s x data ix attr kw M L). destruct M as (H0 & H1 & _). rewrite H0, H1. reflexivity. Qed.
End Proofs.

(** The same inputs with index tensors. *)
Definition as_params {V} (x : list V) up down up_attr down_attr battr bidx : params V := mkParams (Some x) up down up_attr down_attr battr bidx.
Definition dense (a : option (list (nat * nat))) {V} : option (adj V) := option_map AIndex a.

Section Theorems.
Context {V : Type} (o : ops V) (c : mpcfg V).

Lemma dense_messages m r (x data : list V) ix attr : message_and_aggregate_adj o true m r (AIndex ix) (None, None) x data attr = message_and_aggregate o m r ix data attr (length x).
Proof. reflexivity. Qed.

(** Index tensors only: the model of MPModel. *)
Theorem C80_index_tensors (p : params V) :
  propagate_adj o true c (mkAParams (p_x p) (dense (p_up p)) (dense (p_down p)) (p_up_attr p) (p_down_attr p) (p_battr p) (dense (p_bidx p))) = propagate o c p.
Proof.
  unfold propagate_adj, propagate. cbn [a_x a_up a_down a_up_attr a_down_attr a_battr a_bidx]. destruct (p_x p) as [x|]; [|reflexivity].
  destruct (p_up p) as [u|], (p_down p) as [d|], (p_bidx p) as [b|]; reflexivity.
Qed.

(** Square matrices in place of the upper and lower index tensors, whose values are the attributes: the outcome is the same, for every
    configuration, whatever is passed as attributes by keyword. *)
Theorem C80_sparse (p : params V) x up down kw_up kw_down : ops_ok o -> p_x p = Some x ->
  adj_of (length x) up (p_up p) (p_up_attr p) -> adj_of (length x) down (p_down p) (p_down_attr p) ->
  propagate_adj o true c (mkAParams (Some x) up down kw_up kw_down (p_battr p) (dense (p_bidx p))) = propagate o c p.
Proof.
  intros Ho Hx Hu Hd. unfold propagate_adj, propagate. cbn [a_x a_up a_down a_up_attr a_down_attr a_battr a_bidx]. rewrite Hx.
  assert (Cb : @check_adj V true (dense (p_bidx p)) = Ok (None, None)) by (destruct (p_bidx p); reflexivity). rewrite Cb. cbn [bind].
  assert (B : forall bi ba, message_and_aggregate_adj o true (MsgFst (g_msg_bnd c)) (g_aggr_bnd c) (AIndex bi) (None, None) x ba None = message_and_aggregate o (MsgFst (g_msg_bnd c)) (g_aggr_bnd c) bi ba None (length x)) by reflexivity.
  destruct up as [[l|s]|], (p_up p) as [u|]; try contradiction; (destruct down as [[l'|s']|], (p_down p) as [d|]; try contradiction); cbn [check_adj bind adj_of check_adjs fst snd] in *.
  - pose proof Hu as (E0 & E1 & _). pose proof Hd as (E0' & E1' & _). assert (Q : forall n, eq_on (Some n) (Some n) = true) by (intros n; apply Nat.eqb_refl).
    rewrite E0, E0', E1, E1', !Q. cbn [assert_ bind].
    rewrite (sparse_messages' o Ho (g_msg_up c) (g_aggr_up c) s x x u (p_up_attr p)), (sparse_messages' o Ho (g_msg_down c) (g_aggr_down c) s' x x d (p_down_attr p)) by auto.
    destruct (p_bidx p); reflexivity.
  - rewrite (sparse_messages o Ho (g_msg_up c) (g_aggr_up c) s x x u (p_up_attr p)) by auto. destruct (p_bidx p); reflexivity.
  - rewrite (sparse_messages o Ho (g_msg_down c) (g_aggr_down c) s' x x d (p_down_attr p)) by auto. destruct (p_bidx p); reflexivity.
  - destruct (p_bidx p); reflexivity.
Qed.
(** A square boundary matrix (as many boundary cells as cells) works as well. *)
Theorem C80_boundary_square (p : params V) x ba b bi : ops_ok o -> p_x p = Some x -> p_battr p = Some ba -> p_bidx p = Some bi -> length ba = length x ->
  matrix_of b (length x) (length x) bi None ->
  propagate_adj o true c (mkAParams (Some x) (dense (p_up p)) (dense (p_down p)) (p_up_attr p) (p_down_attr p) (Some ba) (Some (ASparse b))) = propagate o c p.
Proof.
  intros Ho Hx Hb Hi L M. unfold propagate_adj, propagate. cbn [a_x a_up a_down a_up_attr a_down_attr a_battr a_bidx]. rewrite Hx, Hb, Hi. cbn [check_adj].
  assert (Cu : @check_adj V true (dense (p_up p)) = Ok (None, None)) by (destruct (p_up p); reflexivity). assert (Cd : @check_adj V true (dense (p_down p)) = Ok (None, None)) by (destruct (p_down p); reflexivity).
  rewrite Cu, Cd. cbn [bind]. assert (Ct : check_adjs (@dense (p_up p) V) (@dense (p_down p) V) (None, None) (None, None) = Ok tt) by (destruct (p_up p), (p_down p); reflexivity). rewrite Ct. cbn [bind].
  rewrite (sparse_messages o Ho (MsgFst (g_msg_bnd c)) (g_aggr_bnd c) b x ba bi None None M L). destruct (p_up p), (p_down p); reflexivity.
Qed.
(** Any other one is refused, although it fits: the number of columns is compared with the number of cells, not of boundary cells. *)
Theorem C80_boundary_rectangular (p : aparams V) x ba b r : a_x p = Some x -> a_battr p = Some ba -> a_bidx p = Some (ASparse b) -> g_bnd c = true -> s_size1 b <> length x ->
  propagate_adj o true c p <> Ok r /\ (a_up p = None -> a_down p = None -> propagate_adj o true c p = Err ValueError).
Proof.
  intros Hx Hb Hi Hg N. unfold propagate_adj. rewrite Hx, Hb, Hi, Hg.
  assert (E : message_and_aggregate_adj o true (MsgFst (g_msg_bnd c)) (g_aggr_bnd c) (ASparse b) (Some (s_size1 b), Some (s_size0 b)) x ba None = Err ValueError).
  { unfold message_and_aggregate_adj, set_size, size_at. cbn [fst snd Nat.eqb]. rewrite (proj2 (Nat.eqb_neq _ _) N). reflexivity. }
  split.
  - intros H. apply bind_ok in H as (us & _ & H). apply bind_ok in H as (ds & _ & H). apply bind_ok in H as (bs & Hbs & H). cbn [check_adj] in Hbs. injection Hbs as <-. apply bind_ok in H as (? & _ & H). apply bind_ok in H as (? & _ & H). apply bind_ok in H as (? & _ & H).
    rewrite E in H. discriminate H.
  - intros -> ->. cbn [check_adj bind check_adjs]. rewrite E. destruct (g_down c); reflexivity.
Qed.
(** The two kinds cannot be mixed, even if lower messages are switched off. *)
Theorem C80_mixed_kinds (p : aparams V) x u d : a_x p = Some x -> a_up p = Some u -> a_down p = Some d ->
  (match u, d with AIndex _, ASparse _ | ASparse _, AIndex _ => True | _, _ => False end) -> (forall b, a_bidx p = Some b -> exists l, b = AIndex l) ->
  propagate_adj o true c p = Err AssertionError.
Proof.
  intros Hx Hu Hd K Hb. unfold propagate_adj. rewrite Hx, Hu, Hd.
  assert (Cb : check_adj true (a_bidx p) = Ok (None, None)) by (destruct (a_bidx p) as [b|]; [destruct (Hb b eq_refl) as [l ->]|]; reflexivity). rewrite Cb.
  destruct u, d; try contradiction; reflexivity.
Qed.
(** Nor reversed. *)
Theorem C80_reverse_flow (p : aparams V) x s : a_x p = Some x -> a_up p = Some (ASparse s) -> propagate_adj o false c p = Err ValueError.
Proof. intros Hx Hu. unfold propagate_adj. rewrite Hx, Hu. reflexivity. Qed.

(** Attributes given by keyword, as all layers of the project do, are ignored beside a matrix: without values in the matrix the outcome is that without attributes. *)
Theorem C80_keyword_attributes (p : params V) x up kw : ops_ok o -> p_x p = Some x -> adj_of (length x) up (p_up p) None -> p_down p = None ->
  propagate_adj o true c (mkAParams (Some x) up None kw (p_down_attr p) (p_battr p) (dense (p_bidx p))) =
  propagate o c (mkParams (Some x) (p_up p) None None (p_down_attr p) (p_battr p) (p_bidx p)).
Proof.
  intros Ho Hx Hu Hd. apply (C80_sparse (mkParams (Some x) (p_up p) None None (p_down_attr p) (p_battr p) (p_bidx p)) x up None kw (p_down_attr p) Ho eq_refl Hu I).
Qed.
End Theorems.

(** Every index with its attributes has such a matrix. *)
Section Build.
Context {V : Type}.
Fixpoint put_entry {A} (e : (nat * nat) * A) (l : list ((nat * nat) * A)) : list ((nat * nat) * A) :=
  match l with [] => [e] | f :: l' => if fst (fst e) <=? fst (fst f) then e :: l else f :: put_entry e l' end.
Definition put_all {A} (l : list ((nat * nat) * A)) := fold_right put_entry [] l.
Lemma put_entry_perm {A} e (l : list ((nat * nat) * A)) : Permutation (put_entry e l) (e :: l).
Proof. induction l as [|f l IH]; [reflexivity|]. cbn [put_entry]. destruct (_ <=? _); [reflexivity|]. rewrite IH. apply perm_swap. Qed.
Lemma put_all_perm {A} (l : list ((nat * nat) * A)) : Permutation (put_all l) l.
Proof. induction l as [|e l IH]; [reflexivity|]. cbn [put_all fold_right]. fold (put_all l). rewrite put_entry_perm. constructor. exact IH. Qed.
Fixpoint ordered {A} (l : list ((nat * nat) * A)) : Prop := match l with [] => True | e :: l' => (forall f, In f l' -> fst (fst e) <= fst (fst f)) /\ ordered l' end.
Lemma put_entry_ordered {A} e (l : list ((nat * nat) * A)) : ordered l -> ordered (put_entry e l).
Proof.
  induction l as [|f l IH]; intros H; cbn [put_entry]; [cbn; split; [intros ? []|exact I]|]. destruct H as [H1 H2]. destruct (Nat.leb_spec (fst (fst e)) (fst (fst f))) as [Q|Q].
  - split; [|split; auto]. intros g [<-|Hg]; [exact Q|]. specialize (H1 g Hg). lia.
  - split; [|apply IH; exact H2]. intros g Hg. apply (Permutation_in _ (put_entry_perm e l)) in Hg as [<-|Hg]; [lia|apply H1; exact Hg].
Qed.
Lemma put_all_ordered {A} (l : list ((nat * nat) * A)) : ordered (put_all l).
Proof. induction l as [|e l IH]; [exact I|]. cbn [put_all fold_right]. apply put_entry_ordered. exact IH. Qed.
Lemma ordered_nth {A} (l : list ((nat * nat) * A)) : ordered l -> forall k m e f, k < m -> nth_error l k = Some e -> nth_error l m = Some f -> fst (fst e) <= fst (fst f).
Proof.
  induction l as [|g l IH]; intros H [|k] [|m] e f L E F; try lia; try discriminate. - injection E as <-. apply H. cbn in F. apply nth_error_In in F. exact F. - cbn in E, F. apply (IH (proj2 H) k m); auto. lia.
Qed.
Lemma combine_split_map {A B} (l : list (A * B)) : combine (map fst l) (map snd l) = l.
Proof. induction l as [|[a b] l IH]; [reflexivity|]. cbn. now rewrite IH. Qed.
Theorem C80_every_index rows cols ix (attr : option (list V)) : (forall e, In e ix -> fst e < cols /\ snd e < rows) -> (forall a, attr = Some a -> length a = length ix) ->
  exists s, matrix_of s rows cols ix attr.
Proof.
  intros R L. set (sw := fun e : nat * nat => (snd e, fst e)). assert (SW : forall e, sw (sw e) = e) by (intros []; reflexivity).
  assert (G : forall A (w : list A), length w = length ix -> let q := put_all (combine (map sw ix) w) in
     length (map snd q) = length (map fst q) /\ (forall e, In e (map fst q) -> fst e < rows /\ snd e < cols) /\
     (forall k l e f, k < l -> nth_error (map fst q) k = Some e -> nth_error (map fst q) l = Some f -> fst e <= fst f) /\
     Permutation (combine (map sw (map fst q)) (map snd q)) (combine ix w)).
  { intros A w Hw q. assert (P : Permutation q (combine (map sw ix) w)) by apply put_all_perm. split; [now rewrite !map_length|]. split; [|split].
    - intros e He. apply in_map_iff in He as (f & <- & Hf). apply (Permutation_in _ P) in Hf. destruct f as [f v]. apply in_combine_l in Hf. apply in_map_iff in Hf as (g & <- & Hg). apply R in Hg. cbn. lia.
    - intros k l e f Hkl E F. rewrite nth_error_map in E, F. destruct (nth_error q k) as [e'|] eqn:E'; [|discriminate E]. destruct (nth_error q l) as [f'|] eqn:F'; [|discriminate F]. injection E as <-. injection F as <-.
      apply (ordered_nth q (put_all_ordered _) k l); auto.
    - rewrite map_map. rewrite (combine_maps (fun p => sw (fst p)) snd q). rewrite (Permutation_map (fun p => (sw (fst p), snd p)) P).
      clear -SW Hw. revert w Hw. induction ix as [|e ix IH]; intros [|v w] Hw; try discriminate; [constructor|]. cbn [map combine fst snd]. rewrite SW. constructor. apply IH. cbn in Hw. lia. }
  destruct attr as [a|].
  - destruct (G V a (L a eq_refl)) as (G1 & G2 & G3 & G4). set (q := put_all (combine (map sw ix) a)) in *. exists (mkSparse rows cols (map fst q) (Some (map snd q))).
    unfold matrix_of. cbn [s_size0 s_size1 s_entries s_value]. split; [reflexivity|]. split; [reflexivity|]. split; [exact G2|]. split; [exact G3|]. split; [exact G1|]. split; [apply L; reflexivity|exact G4].
  - destruct (G unit (repeat tt (length ix)) (repeat_length _ _)) as (G1 & G2 & G3 & G4). set (q := put_all (combine (map sw ix) (repeat tt (length ix)))) in *. exists (mkSparse rows cols (map fst q) None).
    unfold matrix_of. cbn [s_size0 s_size1 s_entries s_value]. split; [reflexivity|]. split; [reflexivity|]. split; [exact G2|]. split; [exact G3|].
    apply (Permutation_map fst) in G4. rewrite !combine_fst in G4; [exact G4|rewrite repeat_length; reflexivity|rewrite !map_length; reflexivity].
Qed.
End Build.

(** ** Cases: a path with three vertices *)
Section Cases.
Let x : list Z := [1; 2; 4]%Z.
Let ix := [(0, 1); (1, 0); (1, 2); (2, 1)].
Let at' := [10; 10; 20; 20]%Z.
Let s := mkSparse 3 3 [(0, 1); (1, 0); (1, 2); (2, 1)] (Some [10; 10; 20; 20]%Z).
Let p : params Z := mkParams (Some x) (Some ix) None (Some at') None None None.
Example C80_ex_matrix : matrix_of s 3 3 ix (Some at').
Proof.
  split; [reflexivity|]. split; [reflexivity|]. split; [intros e [<-|[<-|[<-|[<-|[]]]]]; cbn; lia|]. split.
  - intros [|[|[|[|k]]]] [|[|[|[|l]]]] e f L E F; try lia; cbn in E, F; try (destruct k; discriminate); try (destruct l; discriminate); injection E as <-; injection F as <-; cbn; lia.
  - split; [reflexivity|]. split; [reflexivity|]. cbn. etransitivity; [apply perm_swap|]. apply perm_skip, perm_skip. apply perm_swap.
Qed.
Example C80_sparse_example : propagate_adj Zops true (dummy_cfg Zops true true) (mkAParams (Some x) (Some (ASparse s)) None (Some [7]%Z) None None None) = Ok ([12; 35; 22], [0; 0; 0], [0; 0; 0])%Z /\
  propagate Zops (dummy_cfg Zops true true) p = Ok ([12; 35; 22], [0; 0; 0], [0; 0; 0])%Z.
Proof.
  split; [|reflexivity]. etransitivity; [exact (C80_sparse Zops (dummy_cfg Zops true true) p x (Some (ASparse s)) None (Some [7]%Z) None Zops_ok eq_refl C80_ex_matrix I)|reflexivity].
Qed.
(** The matrix without values, attributes by keyword: an error, or (if the layer can do without, as in CIN0) another result without notice. *)
Theorem C80_attributes_refuted : let s' := mkSparse 3 3 [(0, 1); (1, 0); (1, 2); (2, 1)] (@None (list Z)) in
  matrix_of s' 3 3 ix None /\
  propagate_adj Zops true (dummy_cfg Zops true true) (mkAParams (Some x) (Some (ASparse s')) None (Some at') None None None) = Err TypeError /\
  (let c := mkCfg false false RAdd RAdd RAdd (MsgOpt (fun v => v) Z.add) (MsgOpt (fun v => v) Z.add) (fun v => v) in
   propagate_adj Zops true c (mkAParams (Some x) (Some (ASparse s')) None (Some at') None None None) = Ok ([2; 5; 2], [0; 0; 0], [0; 0; 0])%Z /\
   propagate Zops c p = Ok ([12; 35; 22], [0; 0; 0], [0; 0; 0])%Z).
Proof.
  intros s'. split; [|split; [reflexivity|split; reflexivity]]. destruct C80_ex_matrix as (A & B & C & D & _). split; [reflexivity|]. split; [reflexivity|]. split; [exact C|]. split; [exact D|].
  cbn. etransitivity; [apply perm_swap|]. apply perm_skip, perm_skip. apply perm_swap.
Qed.
(** The boundary matrix of the two edges of the path is 2 x 3 and refused. *)
Let b := mkSparse 2 3 [(0, 0); (0, 1); (1, 1); (1, 2)] (@None (list Z)).
Example C80_boundary_example : matrix_of b 2 3 [(0, 0); (1, 0); (1, 1); (2, 1)] None /\
  propagate_adj Zops true (dummy_cfg Zops true true) (mkAParams (Some [5; 6]%Z) None None None None (Some x) (Some (ASparse b))) = Err ValueError /\
  propagate Zops (dummy_cfg Zops true true) (mkParams (Some [5; 6]%Z) None None None None (Some x) (Some [(0, 0); (1, 0); (1, 1); (2, 1)])) = Ok ([0; 0], [0; 0], [3; 6])%Z.
Proof.
  split; [|split; [|reflexivity]].
  - split; [reflexivity|]. split; [reflexivity|]. split; [intros e [<-|[<-|[<-|[<-|[]]]]]; cbn; lia|]. split; [|apply Permutation_refl].
    intros [|[|[|[|k]]]] [|[|[|[|l]]]] e f L E F; try lia; cbn in E, F; try (destruct k; discriminate); try (destruct l; discriminate); injection E as <-; injection F as <-; cbn; lia.
  - refine (proj2 (C80_boundary_rectangular Zops (dummy_cfg Zops true true) (mkAParams (Some [5; 6]%Z) None None None None (Some x) (Some (ASparse b))) [5; 6]%Z x b ([], [], []) eq_refl eq_refl eq_refl eq_refl _) eq_refl eq_refl). cbn. lia.
Qed.
(** A triangle has as many edges as vertices. *)
Let t := mkSparse 3 3 [(0, 0); (0, 1); (1, 0); (1, 2); (2, 1); (2, 2)] (@None (list Z)).
Example C80_square_example : propagate_adj Zops true (dummy_cfg Zops true true) (mkAParams (Some [5; 6; 7]%Z) None None None None (Some x) (Some (ASparse t))) = Ok ([0; 0; 0], [0; 0; 0], [3; 5; 6])%Z.
Proof.
  etransitivity; [refine (C80_boundary_square Zops (dummy_cfg Zops true true) (mkParams (Some [5; 6; 7]%Z) None None None None (Some x) (Some [(0, 0); (1, 0); (0, 1); (2, 1); (1, 2); (2, 2)])) [5; 6; 7]%Z x t [(0, 0); (1, 0); (0, 1); (2, 1); (1, 2); (2, 2)] Zops_ok eq_refl eq_refl eq_refl eq_refl _)|reflexivity].
  split; [reflexivity|]. split; [reflexivity|]. split; [intros e [<-|[<-|[<-|[<-|[<-|[<-|[]]]]]]]; cbn; lia|]. split; [|apply Permutation_refl].
  intros [|[|[|[|[|[|k]]]]]] [|[|[|[|[|[|l]]]]]] e f L E F; try lia; cbn in E, F; try (destruct k; discriminate); try (destruct l; discriminate); injection E as <-; injection F as <-; cbn; lia.
Qed.
Example C80_mixed_example : propagate_adj Zops true (mkCfg false false RAdd RAdd RAdd (MsgFst (fun v => v)) (MsgFst (fun v => v)) (fun v => v)) (mkAParams (Some x) (Some (ASparse s)) (Some (AIndex [(0, 1)])) None None None None) = Err AssertionError.
Proof. apply (C80_mixed_kinds Zops _ _ x (ASparse s) (AIndex [(0, 1)])); try reflexivity; try exact I; intros b' H; discriminate H. Qed.
End Cases.
Print Assumptions C80_sparse.
Print Assumptions C80_index_tensors.
Print Assumptions C80_boundary_square.
Print Assumptions C80_boundary_rectangular.
Print Assumptions C80_mixed_kinds.
Print Assumptions C80_reverse_flow.
Print Assumptions C80_keyword_attributes.
Print Assumptions C80_every_index.
Print Assumptions C80_attributes_refuted.
