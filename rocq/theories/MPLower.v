(** C29: SparseCIN does not read lower adjacencies; neither does CIN++, contrary to its purpose. *)
From Coq Require Import List Arith Lia ZArith Bool.
From Verif Require Import Base ScatterModel ScatterSpec ScatterProofs ComplexModel BatchSpec BatchSpec2
  DummyModel MPModel BatchProps.
Import ListNotations.

Section Lower.
Context {V : Type} (o : ops V).
Notation complex := (complex V).
Notation cochain := (cochain V).

(** A cochain with its lower adjacency (index, shared boundaries, orientations) replaced. *)
Definition with_lower (c : cochain) (l : option (list (nat * nat))) (s : option (list nat))
    (r : option (list Z)) : cochain :=
  mkCochain (c_dim c) (c_x c) (c_upper c) l s (c_shc c) (c_bidx c) (c_uor c) r
    (c_y c) (c_mask c) (c_n c) (c_nup c) (c_ndown c).

Definition lower_replaced (c c' : cochain) : Prop := exists l s r, c' = with_lower c l s r.

Definition lower_replaced_in (k k' : complex) : Prop :=
  k_dim k' = k_dim k /\ k_y k' = k_y k /\ Forall2 lower_replaced (k_cochains k) (k_cochains k').

Definition lower_replaced_batch (b b' : kbatch V) : Prop :=
  lower_replaced_in (kb_complex b) (kb_complex b') /\ kb_batch b' = kb_batch b /\
  kb_ptr b' = kb_ptr b /\ kb_num b' = kb_num b.

Lemma nth_replaced cs cs' d : Forall2 lower_replaced cs cs' ->
  match nth_error cs d, nth_error cs' d with
  | Some c, Some c' => lower_replaced c c'
  | None, None => True
  | _, _ => False
  end.
Proof. intros H. revert d; induction H; intros [|d]; simpl; auto. apply IHForall2. Qed.

Lemma params_replaced k k' d md top bnd : lower_replaced_in k k' ->
  get_cochain_params k' d md top false bnd = get_cochain_params k d md top false bnd.
Proof.
  intros (_ & _ & H). unfold get_cochain_params.
  pose proof (nth_replaced _ _ d H) as H1. pose proof (nth_replaced _ _ (S d) H) as H2.
  assert (H3 : match d with 0 => None | S d' => match nth_error (k_cochains k') d' with Some b => c_x b | None => None end end =
               match d with 0 => None | S d' => match nth_error (k_cochains k) d' with Some b => c_x b | None => None end end).
  { destruct d as [|d']; auto. pose proof (nth_replaced _ _ d' H) as H3.
    destruct (nth_error (k_cochains k) d'), (nth_error (k_cochains k') d'); try contradiction; auto.
    destruct H3 as (l & s & r & ->). reflexivity. }
  rewrite H3. clear H3.
  destruct (nth_error (k_cochains k) d) as [c|], (nth_error (k_cochains k') d) as [c'|]; try contradiction; auto.
  destruct H1 as (l & s & r & ->). cbn [with_lower c_upper c_shc c_bidx c_x].
  destruct (nth_error (k_cochains k) (S d)) as [a|], (nth_error (k_cochains k') (S d)) as [a'|]; try contradiction; auto.
  destruct H2 as (l' & s' & r' & ->). reflexivity.
Qed.

Definition res_rel {A} (R : A -> A -> Prop) (x y : result A) : Prop :=
  match x, y with Ok a, Ok b => R a b | Err e, Err e' => e = e' | _, _ => False end.

Lemma set_x_replaced c c' x : lower_replaced c c' -> res_rel lower_replaced (set_x c (Some x)) (set_x c' (Some x)).
Proof.
  intros (l & s & r & ->). unfold set_x, num_cells. cbn [with_lower c_n c_x c_bidx c_upper c_lower].
  assert (G : lower_replaced (set_x_raw c (Some x)) (set_x_raw (with_lower c l s r) (Some x))).
  { exists l, s, r. reflexivity. }
  destruct (c_n c) as [[n|]|]; cbn [bind].
  - destruct (n =? length x); simpl; auto.
  - simpl; auto.
  - destruct (c_x c) as [xs|]; cbn [bind].
    + destruct (length xs =? length x); simpl; auto.
    + destruct (c_bidx c) as [bi|]; cbn [bind].
      * destruct (list_max_err (map snd bi)) as [n|e]; cbn [bind]; [|simpl; auto].
        destruct (S n =? length x); simpl; auto.
      * destruct (negb (isSome (c_upper c)) && negb (isSome (c_lower c)));
        destruct (negb (isSome (c_upper c)) && negb (isSome l)); simpl; auto.
Qed.

Lemma set_xs_replaced k k' xs : lower_replaced_in k k' ->
  res_rel lower_replaced_in (set_xs k xs) (set_xs k' xs).
Proof.
  intros (H1 & H2 & H3). unfold set_xs. rewrite H1, H2.
  destruct (length xs <=? k_dim k + 1); [|simpl; auto]. cbn [assert_ bind].
  assert (G : res_rel (Forall2 lower_replaced) (set_xs_loop (k_cochains k) xs) (set_xs_loop (k_cochains k') xs)).
  { clear -H3. revert xs; induction H3 as [|c c' cs cs' Hc Hcs IH]; intros [|x xs]; cbn [set_xs_loop].
    - simpl; auto.
    - simpl; auto.
    - simpl; auto.
    - pose proof (set_x_replaced c c' x Hc) as H.
      destruct (set_x c (Some x)), (set_x c' (Some x)); simpl in H; try contradiction; cbn [bind]; [|simpl; auto].
      specialize (IH xs). destruct (set_xs_loop cs xs), (set_xs_loop cs' xs); simpl in IH; try contradiction; simpl; auto. }
  destruct (set_xs_loop (k_cochains k) xs), (set_xs_loop (k_cochains k') xs); simpl in G; try contradiction; simpl; auto.
  split; auto.
Qed.

Lemma run_convs_replaced md pdim top cs k k' : lower_replaced_in k k' ->
  res_rel (fun r r' => lower_replaced_in (fst r) (fst r') /\ snd r = snd r')
    (run_convs md pdim top false cs k) (run_convs md pdim top false cs k').
Proof.
  revert k k'; induction cs as [|[ls ut] cs IH]; intros k k' H; cbn [run_convs].
  - simpl; auto.
  - assert (E : get_all_cochain_params k' pdim top false true = get_all_cochain_params k pdim top false true).
    { unfold get_all_cochain_params. destruct H as (Hd & Hr). rewrite Hd.
      apply mapM_ext. intros d _. apply params_replaced. split; auto. }
    rewrite E. destruct (get_all_cochain_params k pdim top false true) as [ps|e]; cbn [bind]; [|simpl; auto].
    destruct (conv_forward md ls ps) as [xs|e]; cbn [bind]; [|simpl; auto].
    assert (E2 : (match ut, nth_error (k_cochains k') 2 with
                  | Some f, Some c2 => match c_x c2 with Some x2 => Ok (xs ++ [map f x2]) | None => Err TypeError end
                  | _, _ => Ok xs end) =
                 (match ut, nth_error (k_cochains k) 2 with
                  | Some f, Some c2 => match c_x c2 with Some x2 => Ok (xs ++ [map f x2]) | None => Err TypeError end
                  | _, _ => Ok xs end)).
    { destruct ut; auto. destruct H as (_ & _ & H). pose proof (nth_replaced _ _ 2 H) as H2.
      destruct (nth_error (k_cochains k) 2), (nth_error (k_cochains k') 2); try contradiction; auto.
      destruct H2 as (l & s & r & ->). reflexivity. }
    rewrite E2. clear E2 E.
    match goal with |- res_rel _ (bind ?e0 _) _ => destruct e0 as [xs2|er]; cbn [bind]; [|simpl; auto] end.
    pose proof (set_xs_replaced k k' xs2 H) as HS.
    destruct (set_xs k xs2) as [k1|e], (set_xs k' xs2) as [k1'|e']; simpl in HS; try contradiction; cbn [bind]; [|simpl; auto].
    specialize (IH k1 k1' HS).
    destruct (run_convs md pdim top false cs k1) as [[kf h]|e], (run_convs md pdim top false cs k1') as [[kf' h']|e'];
      simpl in IH; try contradiction; cbn [bind]; [|simpl; auto].
    simpl. destruct IH as [IH1 IH2]. simpl in *. subst. auto.
Qed.

Lemma net_replaced m b b' : n_down m = false -> lower_replaced_batch b b' ->
  res_rel (fun r r' => fst r = fst r' /\ lower_replaced_batch (snd r) (snd r'))
    (net_forward o m b) (net_forward o m b').
Proof.
  intros Hm (H & H1 & H2 & H3). unfold net_forward. rewrite Hm, H1.
  pose proof (run_convs_replaced (n_max_dim m) (n_pdim m) (n_top m) (n_convs m) _ _ H) as HR.
  destruct (run_convs _ _ _ _ _ (kb_complex b)) as [[k h]|e], (run_convs _ _ _ _ _ (kb_complex b')) as [[k' h']|e'];
    simpl in HR; try contradiction; cbn [bind]; [|simpl; auto].
  destruct HR as [HR1 HR2]. simpl in HR2. subst h'.
  destruct (final_xs o (n_jump m) h) as [xs|e]; cbn [bind]; [|simpl; auto].
  destruct (readout o m xs (kb_batch b)) as [out|e]; cbn [bind]; [|simpl; auto].
  simpl. split; auto. split; auto.
Qed.

(** Whatever lower adjacency the batch carries, the outcome (predictions or error) is the same. *)
Theorem C29_sparse_cin_ignores_lower_partial max_dim layers jump pool dims lin1 mean lin2 b b' :
  lower_replaced_batch b b' ->
  let m := sparse_cin o max_dim layers jump pool dims lin1 mean lin2 in
  match net_forward o m b, net_forward o m b' with
  | Ok (out, _), Ok (out', _) => out = out'
  | Err e, Err e' => e = e'
  | _, _ => False
  end.
Proof.
  intros H m. pose proof (net_replaced m b b' eq_refl H) as HR.
  destruct (net_forward o m b) as [[out k]|], (net_forward o m b') as [[out' k']|]; simpl in HR; try contradiction; auto.
  apply HR.
Qed.

(** The same holds for CIN++: [include_down_features] is not requested by the inherited forward
    pass and the cochain convolution is built with [use_down_msg=False]. *)
Theorem C29_cinpp_ignores_lower max_dim layers jump pool dims lin1 mean lin2 b b' :
  lower_replaced_batch b b' ->
  let m := cinpp o max_dim layers jump pool dims lin1 mean lin2 in
  match net_forward o m b, net_forward o m b' with
  | Ok (out, _), Ok (out', _) => out = out'
  | Err e, Err e' => e = e'
  | _, _ => False
  end.
Proof.
  intros H m. pose proof (net_replaced m b b' eq_refl H) as HR.
  destruct (net_forward o m b) as [[out k]|], (net_forward o m b') as [[out' k']|]; simpl in HR; try contradiction; auto.
  apply HR.
Qed.

(** Even when lower adjacency is handed to the CIN++ convolution, its output ignores it. *)
Theorem C29_cinpp_conv_ignores_lower (l : cinpp_level V) x up ua bi ba down down' da da' :
  cinpp_forward o l (mkParams x up down ua da ba bi) = cinpp_forward o l (mkParams x up down' ua da' ba bi).
Proof. unfold cinpp_forward, propagate, cinpp_cfg. cbn [g_down p_x p_up p_up_attr p_battr p_bidx the_x]. reflexivity. Qed.

End Lower.

(** ** Example: dropping the lower adjacency of the batch of [trio]. *)
Definition no_lower (k : complex Z) : complex Z :=
  mkComplexRec (k_dim k) (map (fun c => with_lower c None None None) (k_cochains k)) (k_y k).
Definition demo_sparse (d : nat) : sparse_level Z :=
  mkSparseLevel (MsgCat (fun a b => a + 2 * b)%Z) (fun v => 3 * v)%Z (fun v => v)%Z (fun v => v + 1)%Z
    (fun u v => u + 5 * v)%Z (fun v => v)%Z (fun v => 2 * v)%Z.
Definition demo_cinpp (d : nat) : cinpp_level Z :=
  mkCinppLevel (MsgCat (fun a b => a + 2 * b)%Z) (MsgCat (fun a b => a + 7 * b)%Z) (fun v => 3 * v)%Z
    (fun v => v)%Z (fun v => 2 * v)%Z (fun v => v + 1)%Z (fun u v w => u + 5 * v + 11 * w)%Z
    (fun v => v)%Z (fun v => 2 * v)%Z (fun v => v)%Z.
Definition demo_net : net Z :=
  sparse_cin Zops 2 [demo_sparse; demo_sparse] None RAdd [0;1;2] (fun d v => v)%Z false (fun v => v)%Z.
Definition demo_net_pp : net Z :=
  cinpp Zops 2 [demo_cinpp; demo_cinpp] None RAdd [0;1;2] (fun d v => v)%Z false (fun v => v)%Z.

Example C29_example :
  exists b, from_complex_list trio 2 = Ok b /\
    lower_replaced_batch b (mkKBatch (no_lower (kb_complex b)) (kb_batch b) (kb_ptr b) (kb_num b)) /\
    kb_complex b <> no_lower (kb_complex b) /\
    exists out b1, net_forward Zops demo_net b = Ok (out, b1) /\ length out = 3 /\ NoDup out.
Proof.
  eexists. split; [reflexivity|]. split.
  - split; [|auto]. split; [reflexivity|]. split; [reflexivity|].
    cbn. repeat (constructor; [eexists _, _, _; reflexivity|]). constructor.
  - split; [discriminate|]. eexists _, _. split; [vm_compute; reflexivity|].
    split; auto. repeat constructor; cbn; intuition discriminate.
Qed.

(** The claim that CIN++ uses the lower adjacency it is given is false: there is a complex with
    lower adjacency for which no architecture distinguishes it from the one without. *)
Theorem C29_cinpp_uses_lower_refuted :
  exists b b' : kbatch Z, from_complex_list trio 2 = Ok b /\
    attr c_lower 1 (kb_complex b) <> None /\ attr c_lower 1 (kb_complex b') = None /\
    forall max_dim layers jump pool dims lin1 mean lin2,
    let m := cinpp Zops max_dim layers jump pool dims lin1 mean lin2 in
    match net_forward Zops m b, net_forward Zops m b' with
    | Ok (out, _), Ok (out', _) => out = out'
    | Err e, Err e' => e = e'
    | _, _ => False
    end.
Proof.
  eexists. exists (match from_complex_list trio 2 with
     Ok b => mkKBatch (no_lower (kb_complex b)) (kb_batch b) (kb_ptr b) (kb_num b) | Err _ => mkKBatch house [] [] 0 end).
  split; [reflexivity|]. split; [cbn; discriminate|]. split; [reflexivity|]. intros.
  apply C29_cinpp_ignores_lower. split; [|auto]. split; [reflexivity|]. split; [reflexivity|].
  cbn. repeat (constructor; [eexists _, _, _; reflexivity|]). constructor.
Qed.

Example demo_pp_runs : exists b out b1, from_complex_list trio 2 = Ok b /\
  net_forward Zops demo_net_pp b = Ok (out, b1) /\ length out = 3.
Proof. eexists _, _, _. split; [reflexivity|]. split; [vm_compute; reflexivity|]. reflexivity. Qed.

Print Assumptions C29_sparse_cin_ignores_lower_partial.
Print Assumptions C29_cinpp_ignores_lower.
Print Assumptions C29_cinpp_conv_ignores_lower.
Print Assumptions C29_cinpp_uses_lower_refuted.
