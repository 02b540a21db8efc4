(** The command line means what the grammar says; which runs the scripts start. *)
From Coq Require Import String Ascii List ZArith QArith Bool Lia Decimal DecimalString DecimalPos DecimalZ.
From Verif Require Import Base LaunchModel LaunchProofs CommandModel CommandSpec CommandProofs.
Import ListNotations.
Open Scope string_scope.

(** ** C68 *)
Theorem C68_parse e l :
  (forall ns, parse_args e l = Ok ns -> exists its, command e l its /\ says e its ns) /\
  (forall its, command e l its -> exists ns, parse_args e l = Ok ns /\ says e its ns) /\
  (forall x, parse_args e l = Err x -> x = SystemExit /\ forall its, ~ command e l its).
Proof.
  split; [apply parse_sound|]. split; [apply parse_complete|].
  intros x H. split; [now apply parse_err in H|]. intros its C. destruct (parse_complete _ _ _ C) as (ns & E & _). congruence.
Qed.

(** A text is read in one way only. *)
Lemma final_app its1 its2 o d : final (its1 ++ its2) o d = final its2 o (final its1 o d).
Proof. revert d. induction its1 as [|[n v] its1 IH]; intros d; [reflexivity|]. apply IH. Qed.
Lemma command_app e l1 its1 l2 its2 : command e l1 its1 -> command e l2 its2 -> command e (l1 ++ l2) (its1 ++ its2).
Proof. intros H1 H2. induction H1 as [|ts n v l its I H IH]; [exact H2|]. rewrite <- app_assoc. now apply (one_more e ts n v). Qed.
Lemma command_one e ts n v : item e ts n v -> command e ts [(n, v)].
Proof. intros H. rewrite <- (app_nil_r ts). apply one_more; [exact H|constructor]. Qed.

(** ** Integers as arguments *)
Lemma uint_digits u : digits (NilEmpty.string_of_uint u).
Proof. unfold digits, letters. induction u; cbn; constructor; cbn; auto 12. Qed.
Lemma show_arg e z : arglike e (show z).
Proof.
  unfold show. destruct z as [|p|p]; cbn [Z.to_int NilEmpty.string_of_int].
  - apply plain_text. discriminate.
  - apply plain_text. intros r H. pose proof (uint_digits (Pos.to_uint p)) as D. rewrite H in D.
    inversion D as [|? ? X _ Q]; subst. cbn in X. repeat (destruct X as [X|X]; [discriminate|]). exact X.
  - apply (negative_integer e (NilEmpty.string_of_uint (Pos.to_uint p))); [apply uint_digits|].
    pose proof (Unsigned.to_uint_nonnil p) as N. destruct (Pos.to_uint p); [congruence| | | | | | | | | |]; discriminate.
Qed.
Lemma int_item e n z : decimal e -> named e n KInt -> item e ["--" ++ n; show z] n (VInt z).
Proof.
  intros D N. apply (value e ("--" ++ n) (show z) n KInt); [split; [exact N|now left]|apply show_arg|constructor; apply D].
Qed.
Lemma str_item e n v : arglike e v -> named e n KStr -> item e ["--" ++ n; v] n (VStr v).
Proof. intros A N. apply (value e ("--" ++ n) v n KStr); [split; [exact N|now left]|exact A|constructor]. Qed.
Ltac isnamed := eexists; unfold options; repeat (first [left; reflexivity|right]).

(** ** Values have the type of their option *)
Definition fits (k : kind) (v : val) : Prop :=
  match k, v with
  | KInt, VInt _ | KFloat, VFloat _ | KStr, VStr _ | KChoice _, VStr _ | KFlag, VBool _ | KInts, VInts _ => True
  | _, _ => False
  end.
Lemma item_fits e ts n v : item e ts n v -> exists k, named e n k /\ fits k v.
Proof.
  intros H. destruct H as [t n [S _]|t v n k x [S _] A R|p v n k x [S _] R|t vs n zs [S _] N F|p v n z [S _] I].
  - eexists; split; [exact S|exact Logic.I].
  - exists k. split; [exact S|]. destruct R; exact Logic.I.
  - exists k. split; [exact S|]. destruct R; exact Logic.I.
  - eexists; split; [exact S|exact Logic.I].
  - eexists; split; [exact S|exact Logic.I].
Qed.
Lemma final_fits e l its o k d : command e l its -> named e o k -> final its o d = d \/ fits k (final its o d).
Proof.
  intros H N. revert d. induction H as [|ts n v l its I H IH]; intros d; [now left|]. cbn [final].
  destruct (string_dec o n) as [->|]; [|apply IH]. right. destruct (IH v) as [-> | X]; [|exact X].
  apply item_fits in I as (k' & N' & F). now rewrite (named_fun _ _ _ _ N N').
Qed.
Lemma final_int e l its o z : command e l its -> named e o KInt -> exists z', final its o (VInt z) = VInt z'.
Proof.
  intros H N. destruct (final_fits _ _ _ _ _ (VInt z) H N) as [-> | X]; [eauto|].
  destruct (final its o (VInt z)); destruct X. eauto.
Qed.
Lemma final_opt e l its o : command e l its -> named e o KInt -> final its o VNone = VNone \/ exists z', final its o VNone = VInt z'.
Proof.
  intros H N. destruct (final_fits _ _ _ _ _ VNone H N) as [-> | X]; [auto|]. right.
  destruct (final its o VNone); destruct X. eauto.
Qed.
Lemma final_str e l its o s : command e l its -> named e o KStr -> exists s', final its o (VStr s) = VStr s'.
Proof.
  intros H N. destruct (final_fits _ _ _ _ _ (VStr s) H N) as [-> | X]; [eauto|].
  destruct (final its o (VStr s)); destruct X. eauto.
Qed.

(** ** Several runs *)
Lemma mapM_all {A B} (f : A -> result B) (P : A -> B -> Prop) l :
  (forall a, In a l -> exists b, f a = Ok b /\ P a b) -> exists bs, mapM f l = Ok bs /\ Forall2 P l bs.
Proof.
  induction l as [|a l IH]; intros H; [exists []; split; [reflexivity|constructor]|].
  destruct (H a (or_introl eq_refl)) as (b & E & Pb). destruct IH as (bs & Es & Ps); [intros; apply H; now right|].
  exists (b :: bs). cbn [mapM]. rewrite E. cbn [bind]. rewrite Es. split; [reflexivity|now constructor].
Qed.
Lemma forall2_nth {A B} (P : A -> B -> Prop) l bs : Forall2 P l bs <->
  List.length l = List.length bs /\ forall i b, nth_error bs i = Some b -> exists a, nth_error l i = Some a /\ P a b.
Proof.
  split.
  - intros H. induction H as [|a b l bs Hab H [IH1 IH2]]; [split; [reflexivity|]; intros [|i] b; discriminate|].
    split; [cbn; congruence|]. intros [|i] c E; cbn in *; [injection E as <-; eauto|auto].
  - revert l. induction bs as [|b bs IH]; intros [|a l] [L H]; try discriminate; constructor.
    + destruct (H 0%nat b eq_refl) as (a' & E & X). cbn in E. congruence.
    + apply IH. split; [now injection L|]. intros i c E. exact (H (S i) c E).
Qed.
Lemma range_length a b : List.length (range a b) = Z.to_nat (b - a).
Proof. unfold range. now rewrite map_length, seq_length. Qed.
Lemma seq_nth_error a n i : (i < n)%nat -> nth_error (seq a n) i = Some (a + i)%nat.
Proof.
  revert a i. induction n as [|n IH]; intros a i L; [lia|]. destruct i as [|i]; cbn; [f_equal; lia|].
  rewrite IH by lia. f_equal. lia.
Qed.
Lemma range_nth a b i : (i < Z.to_nat (b - a))%nat -> nth_error (range a b) i = Some (a + Z.of_nat i)%Z.
Proof. intros L. unfold range. rewrite nth_error_map, seq_nth_error by exact L. reflexivity. Qed.
Lemma prod_nth {A B} (l1 : list A) (l2 : list B) i : (0 < List.length l2)%nat ->
  nth_error (list_prod l1 l2) i =
  match nth_error l1 (i / List.length l2), nth_error l2 (i mod List.length l2) with
  | Some a, Some b => Some (a, b) | _, _ => None end.
Proof.
  intros L. revert i. induction l1 as [|a l1 IH]; intros i; cbn [list_prod].
  - assert (Z : forall X n, nth_error (@nil X) n = None) by (intros X [|n]; reflexivity). now rewrite !Z.
  - destruct (Nat.lt_ge_cases i (List.length l2)) as [Hi|Hi].
    + rewrite nth_error_app1 by (rewrite map_length; exact Hi). rewrite Nat.div_small, Nat.mod_small by exact Hi. cbn [nth_error].
      rewrite nth_error_map. destruct (nth_error l2 i); reflexivity.
    + rewrite nth_error_app2 by (rewrite map_length; exact Hi). rewrite map_length, IH.
      assert (E : i = ((i - List.length l2) + 1 * List.length l2)%nat) by lia.
      assert (D : (i / List.length l2 = S ((i - List.length l2) / List.length l2))%nat)
        by (rewrite E at 1; rewrite Nat.div_add by lia; lia).
      assert (M : (i mod List.length l2 = (i - List.length l2) mod List.length l2)%nat)
        by (rewrite E at 1; rewrite Nat.mod_add by lia; reflexivity).
      rewrite D, M. reflexivity.
Qed.
Lemma among_not s l : negb (among s l) = true <-> ~ In s l.
Proof. rewrite negb_true_iff, <- among_In. destruct (among s l); split; congruence. Qed.

(** run_tu_exp: ten runs; they are the user's options with the fold replaced. *)
Theorem C68_tu e l its : decimal e -> command e l its -> ~ In "fold" l ->
  exists nss, tu_runs e l = Ok nss /\
    Forall2 (fun i ns => says e (its ++ [("fold", VInt i)]) ns) [0; 1; 2; 3; 4; 5; 6; 7; 8; 9]%Z nss.
Proof.
  intros D C N. unfold tu_runs. apply among_not in N. rewrite N. cbn [assert_ bind].
  destruct (parse_complete _ _ _ C) as (ns & E & S). rewrite E. cbn [bind].
  change [0; 1; 2; 3; 4; 5; 6; 7; 8; 9]%Z with (range 0 10). apply mapM_all. intros i _.
  apply parse_complete. apply command_app; [exact C|]. apply command_one. apply (int_item e "fold"); [exact D|isnamed].
Qed.
Theorem C68_tu_only e l nss : tu_runs e l = Ok nss -> ~ In "fold" l /\ exists its, command e l its.
Proof.
  unfold tu_runs. destruct (among "fold" l) eqn:N; [discriminate|]. cbn [negb assert_ bind].
  destruct (parse_args e l) as [ns|] eqn:E; [|discriminate]. intros _. split.
  - rewrite <- among_In. congruence.
  - apply parse_sound in E as (its & C & _). eauto.
Qed.

Lemma says_given e its ns o v : says e its ns -> given e its o v -> ns o = v.
Proof. intros S (k & d & H & ->). eapply S; eauto. Qed.
Lemma given_int e l its o : command e l its -> (exists z, In (o, (KInt, VInt z)) (options e)) -> exists z, given e its o (VInt z).
Proof.
  intros C (z & H). destruct (final_int _ _ _ o z C) as (z' & E); [exists (VInt z); exact H|]. exists z', KInt, (VInt z). auto.
Qed.
Ltac isoption := eexists; unfold options; repeat (first [left; reflexivity|right]).
Ltac isin := unfold options; repeat (first [left; reflexivity|right]).

(** run_mol_exp: one run for each seed, or for each seed and fold of CSL. *)
Theorem C68_mol e l its first last : decimal e -> command e l its ->
  ~ In "--seed" l -> ~ In "--fold" l ->
  given e its "start_seed" (VInt first) -> given e its "stop_seed" (VInt last) -> (first <= last)%Z ->
  given e its "folds" VNone ->
  exists nss, mol_script e l = Ok nss /\ List.length nss = Z.to_nat (last + 1 - first) /\
    forall i ns, nth_error nss i = Some ns -> says e (its ++ [("seed", VInt (first + Z.of_nat i))]) ns.
Proof.
  intros D C N1 N2 G1 G2 L G3. unfold mol_script. apply among_not in N1, N2. rewrite N1, N2. cbn [assert_ bind].
  destruct (parse_complete _ _ _ C) as (ns & E & S). rewrite E. cbn [bind].
  rewrite (says_given _ _ _ _ _ S G1), (says_given _ _ _ _ _ S G2), (says_given _ _ _ _ _ S G3). cbn [as_int].
  apply Z.leb_le in L. rewrite L. cbn [assert_ bind]. apply Z.leb_le in L.
  destruct (mapM_all (fun s => parse_args e (l ++ ["--seed"; show s])) (fun s ns => says e (its ++ [("seed", VInt s)]) ns)
              (range first (last + 1))) as (nss & M & F).
  { intros s _. apply parse_complete, command_app; [exact C|]. apply command_one, (int_item e "seed"); [exact D|isnamed]. }
  exists nss. split; [exact M|]. apply forall2_nth in F as [F1 F2]. rewrite range_length in F1. split; [now symmetry|].
  intros i ns' H. destruct (F2 i ns' H) as (s & Es & Hs). rewrite range_nth in Es; [now injection Es as <-|].
  rewrite F1. apply nth_error_Some. congruence.
Qed.

Theorem C68_mol_folds e l its first last k : decimal e -> command e l its ->
  ~ In "--seed" l -> ~ In "--fold" l ->
  given e its "start_seed" (VInt first) -> given e its "stop_seed" (VInt last) -> (first <= last)%Z ->
  given e its "folds" (VInt k) -> given e its "dataset" (VStr "CSL") ->
  exists nss, mol_script e l = Ok nss /\ List.length nss = (Z.to_nat (last + 1 - first) * Z.to_nat k)%nat /\
    forall i ns, nth_error nss i = Some ns ->
      says e (its ++ [("seed", VInt (first + Z.of_nat (i / Z.to_nat k))); ("fold", VInt (Z.of_nat (i mod Z.to_nat k)))]) ns.
Proof.
  intros D C N1 N2 G1 G2 L G3 G4. unfold mol_script. apply among_not in N1, N2. rewrite N1, N2. cbn [assert_ bind].
  destruct (parse_complete _ _ _ C) as (ns & E & S). rewrite E. cbn [bind].
  rewrite (says_given _ _ _ _ _ S G1), (says_given _ _ _ _ _ S G2), (says_given _ _ _ _ _ S G3), (says_given _ _ _ _ _ S G4).
  cbn [as_int str_eqb]. apply Z.leb_le in L. rewrite L, String.eqb_refl. cbn [assert_ bind]. apply Z.leb_le in L.
  set (f := fun sf : Z * Z => _).
  destruct (mapM_all f (fun sf ns => says e (its ++ [("seed", VInt (fst sf)); ("fold", VInt (snd sf))]) ns)
              (list_prod (range first (last + 1)) (range 0 k))) as (nss & M & F).
  { intros [s g] _. apply parse_complete, command_app; [exact C|]. cbn [fst snd].
    apply (command_app e _ [("seed", VInt s)] _ [("fold", VInt g)]); apply command_one;
      [apply (int_item e "seed")|apply (int_item e "fold")]; try exact D; isnamed. }
  exists nss. split; [exact M|]. apply forall2_nth in F as [F1 F2]. rewrite prod_length, !range_length, Z.sub_0_r in F1.
  split; [now symmetry|]. intros i ns' H. destruct (F2 i ns' H) as ([s g] & Es & Hs).
  assert (Li : (i < Z.to_nat (last + 1 - first) * Z.to_nat k)%nat) by (rewrite F1; apply nth_error_Some; congruence).
  assert (K : (Z.to_nat k <> 0)%nat) by (intros K; rewrite K in Li; lia).
  rewrite prod_nth in Es; rewrite range_length, Z.sub_0_r in *; [|lia].
  rewrite range_nth in Es by (apply Nat.div_lt_upper_bound; lia).
  rewrite range_nth in Es by (rewrite Z.sub_0_r; now apply Nat.mod_upper_bound).
  injection Es as <- <-. exact Hs.
Qed.
Theorem C68_mol_only e l nss : mol_script e l = Ok nss ->
  ~ In "--seed" l /\ ~ In "--fold" l /\
  exists its first last, command e l its /\ given e its "start_seed" (VInt first) /\ given e its "stop_seed" (VInt last) /\
    (first <= last)%Z /\ (given e its "folds" VNone \/ given e its "dataset" (VStr "CSL") /\ exists k, given e its "folds" (VInt k)).
Proof.
  unfold mol_script. destruct (among "--seed" l) eqn:N1; [discriminate|]. destruct (among "--fold" l) eqn:N2; [discriminate|].
  cbn [negb assert_ bind]. destruct (parse_args e l) as [ns|] eqn:E; [|discriminate]. cbn [bind].
  apply parse_sound in E as (its & C & S).
  destruct (given_int e l its "start_seed" C) as (first & G1); [exists 0%Z; isin|].
  destruct (given_int e l its "stop_seed" C) as (last & G2); [exists 9%Z; isin|].
  rewrite (says_given _ _ _ _ _ S G1), (says_given _ _ _ _ _ S G2). cbn [as_int].
  destruct (first <=? last)%Z eqn:L; [|discriminate]. cbn [assert_ bind]. apply Z.leb_le in L. intros H.
  split; [rewrite <- among_In; congruence|]. split; [rewrite <- among_In; congruence|].
  exists its, first, last. split; [exact C|]. split; [exact G1|]. split; [exact G2|]. split; [exact L|].
  assert (F : given e its "folds" (final its "folds" VNone)) by (exists KInt, VNone; split; [isin|reflexivity]).
  destruct (final_opt e l its "folds" C) as [X|(k & X)]; [isnamed| |]; rewrite X in F; [now left|]. right.
  rewrite (says_given _ _ _ _ _ S F) in H.
  assert (F2 : given e its "dataset" (final its "dataset" (VStr "PROTEINS"))) by (exists KStr, (VStr "PROTEINS"); split; [isin|reflexivity]).
  destruct (final_str e l its "dataset" "PROTEINS" C) as (ds & Y); [isnamed|]. rewrite Y in F2.
  rewrite (says_given _ _ _ _ _ S F2) in H. cbn [str_eqb] in H. destruct (ds =? "CSL") eqn:Q; [|discriminate].
  apply String.eqb_eq in Q. split; [now rewrite <- Q|]. now exists k.
Qed.

(** run_ring_exp: one run for each seed and ring size. *)
Lemma ring_folds i : nth_error (combine (range 0 (Z.of_nat (List.length ring_sizes))) ring_sizes) i =
  if (i <? 11)%nat then Some (Z.of_nat i, ring_size i) else None.
Proof. do 11 (destruct i as [|i]; [reflexivity|]). destruct i; reflexivity. Qed.
Theorem C68_ring e l its first last m : decimal e -> command e l its ->
  ~ In "--seed" l -> ~ In "--fold" l -> given e its "max_ring_size" VNone ->
  given e its "start_seed" (VInt first) -> given e its "stop_seed" (VInt last) -> given e its "model" (VStr m) ->
  exists nss, ring_script e l = Ok nss /\ List.length nss = (Z.to_nat (last + 1 - first) * 11)%nat /\
    forall i ns, nth_error nss i = Some ns ->
      says e (its ++ [("fold", VInt (Z.of_nat (i mod 11))); ("max_ring_size", VInt (ring_size (i mod 11)));
                      ("num_layers", VInt (if string_dec m "ring_sparse_cin" then 3 else 5 + Z.of_nat (i mod 11)));
                      ("seed", VInt (first + Z.of_nat (i / 11)))]) ns.
Proof.
  intros D C N1 N2 G0 G1 G2 G3. unfold ring_script. apply among_not in N1, N2. rewrite N1, N2. cbn [assert_ bind].
  destruct (parse_complete _ _ _ C) as (ns & E & S). rewrite E. cbn [bind].
  rewrite (says_given _ _ _ _ _ S G0), (says_given _ _ _ _ _ S G1), (says_given _ _ _ _ _ S G2), (says_given _ _ _ _ _ S G3).
  cbn [as_int str_eqb assert_ bind]. clear E S ns.
  set (folds := combine _ _). set (f := fun sf : Z * (Z * Z) => _).
  destruct (mapM_all f (fun sf ns => says e (its ++ [("fold", VInt (fst (snd sf))); ("max_ring_size", VInt (snd (snd sf)));
      ("num_layers", VInt (if string_dec m "ring_sparse_cin" then 3 else snd (snd sf) / 2)%Z); ("seed", VInt (fst sf))]) ns)
      (list_prod (range first (last + 1)) folds)) as (nss & M & F).
  { intros [s [g z]] _. cbn [fst snd]. unfold f.
    assert (Q : (if m =? "ring_sparse_cin" then 3%Z else (z / 2)%Z) = (if string_dec m "ring_sparse_cin" then 3 else z / 2)%Z)
      by (destruct (String.eqb_spec m "ring_sparse_cin"), (string_dec m "ring_sparse_cin"); congruence).
    rewrite Q. set (k := if string_dec m "ring_sparse_cin" then _ else _).
    set (ch := [("fold", VInt g); ("max_ring_size", VInt z); ("num_layers", VInt k); ("seed", VInt s)]).
    destruct (parse_complete e (l ++ ["--fold"; show g] ++ ["--max_ring_size"; show z] ++ ["--num_layers"; show k] ++ ["--seed"; show s])
                (its ++ ch)) as (ns & E & S).
    { apply command_app; [exact C|].
      apply (command_app e _ [("fold", VInt g)] _ [("max_ring_size", VInt z); ("num_layers", VInt k); ("seed", VInt s)]);
        [apply command_one, (int_item e "fold"); [exact D|isnamed]|].
      apply (command_app e _ [("max_ring_size", VInt z)] _ [("num_layers", VInt k); ("seed", VInt s)]);
        [apply command_one, (int_item e "max_ring_size"); [exact D|isnamed]|].
      apply (command_app e _ [("num_layers", VInt k)] _ [("seed", VInt s)]);
        [apply command_one, (int_item e "num_layers"); [exact D|isnamed]|].
      apply command_one, (int_item e "seed"); [exact D|isnamed]. }
    exists ns. split; [|exact S]. rewrite E. cbn [bind].
    assert (L : ns "num_layers" = VInt k).
    { rewrite (S "num_layers" KInt (VInt 5)) by isin. now rewrite final_app. }
    rewrite L, Z.eqb_refl. reflexivity. }
  exists nss. split; [exact M|]. apply forall2_nth in F as [F1 F2].
  assert (LF : List.length folds = 11%nat) by reflexivity.
  rewrite prod_length, !range_length, LF in F1.
  split; [now symmetry|]. intros i ns' H. destruct (F2 i ns' H) as ([s [g z]] & Es & Hs).
  assert (Li : (i < Z.to_nat (last + 1 - first) * 11)%nat) by (rewrite F1; apply nth_error_Some; congruence).
  rewrite prod_nth in Es; rewrite LF in *; [|lia].
  rewrite range_nth in Es by (apply Nat.div_lt_upper_bound; lia).
  assert (Lm : (i mod 11 < 11)%nat) by now apply Nat.mod_upper_bound.
  unfold folds in Es. rewrite ring_folds in Es. apply Nat.ltb_lt in Lm. rewrite Lm in Es.
  assert (Z1 : s = (first + Z.of_nat (i / 11))%Z) by congruence.
  assert (Z2 : g = Z.of_nat (i mod 11)) by congruence.
  assert (Z3 : z = ring_size (i mod 11)) by congruence. clear Es Lm. rewrite Z1, Z2, Z3 in Hs.
  cbn [fst snd] in Hs. assert (Q : (ring_size (i mod 11) / 2 = 5 + Z.of_nat (i mod 11))%Z).
  { unfold ring_size. replace (10 + 2 * Z.of_nat (i mod 11))%Z with ((5 + Z.of_nat (i mod 11)) * 2)%Z by lia. now apply Z.div_mul. }
  rewrite Q in Hs. exact Hs.
Qed.
Theorem C68_ring_only e l nss : ring_script e l = Ok nss ->
  ~ In "--seed" l /\ ~ In "--fold" l /\ exists its, command e l its /\ given e its "max_ring_size" VNone.
Proof.
  unfold ring_script. destruct (among "--fold" l) eqn:N1; [discriminate|]. destruct (among "--seed" l) eqn:N2; [discriminate|].
  cbn [negb assert_ bind]. destruct (parse_args e l) as [ns|] eqn:E; [|discriminate]. cbn [bind].
  apply parse_sound in E as (its & C & S). intros H.
  split; [rewrite <- among_In; congruence|]. split; [rewrite <- among_In; congruence|]. exists its. split; [exact C|].
  assert (F : given e its "max_ring_size" (final its "max_ring_size" VNone)) by (exists KInt, VNone; split; [isin|reflexivity]).
  destruct (final_opt e l its "max_ring_size" C) as [X|(k & X)]; [isnamed| |]; rewrite X in F; [exact F|].
  rewrite (says_given _ _ _ _ _ S F) in H. discriminate.
Qed.

(** run_sr_exp: one run for each family and seed. *)
Lemma slash_end p : ends_with_slash p = true <-> exists q, p = q ++ "/".
Proof.
  unfold ends_with_slash. split.
  - intros H. assert (X : forall p, (match String.get (String.length p - 1) p with Some c => Ascii.eqb c "/" | None => false end) = true ->
      exists q, p = q ++ "/").
    { clear. induction p as [|c p IH]; [discriminate|]. destruct p as [|d p].
      - cbn. intros H. apply Ascii.eqb_eq in H as ->. exists "". reflexivity.
      - intros H. destruct IH as (q & E).
        + cbn [String.length] in H |- *. replace (S (S (String.length p)) - 1)%nat with (S (S (String.length p) - 1))%nat in H by lia.
          exact H.
        + exists (String c q). cbn. now rewrite E. }
    now apply X.
  - intros (q & ->). induction q as [|c q IH]; [reflexivity|].
    assert (L : String.length (q ++ "/") = S (String.length q)) by (clear; induction q; cbn; congruence).
    cbn [append String.length]. rewrite L in *. replace (S (S (String.length q)) - 1)%nat with (S (S (String.length q) - 1))%nat by lia.
    exact IH.
Qed.
Lemma join_inside p q r : (forall q', q <> "/" ++ q') -> inside p q r -> path_join p q = r.
Proof.
  intros N H. unfold path_join. assert (F : startswith q "/" = false).
  { apply not_true_iff_false. rewrite starts_iff. intros (x & E). exact (N x E). }
  rewrite F. destruct H as [q|p q|p q N1 N2].
  - reflexivity.
  - assert (X : ends_with_slash (p ++ "/") = true) by (apply slash_end; eauto). rewrite X, orb_true_r. apply app_assoc_s.
  - assert (X : ends_with_slash p = false) by (apply not_true_iff_false; rewrite slash_end; intros (q' & E); exact (N2 _ E)).
    apply String.eqb_neq in N1. now rewrite N1, X.
Qed.
Lemma inside_letter p q r c : inside p q r -> In c (letters q) -> In c (letters r).
Proof.
  intros H Hc. destruct H; [exact Hc| |]; rewrite letters_app; apply in_or_app; right; right; exact Hc.
Qed.
Lemma folder_fresh p q r o : inside p ("SR-" ++ q) r -> lacks "S" o -> o <> r.
Proof. intros H L ->. apply L. apply (inside_letter _ _ _ "S"%char H). now left. Qed.

Lemma ints_item e zs : decimal e -> zs <> [] -> item e ("--readout_dims" :: map show zs) "readout_dims" (VInts zs).
Proof.
  intros D N. apply several; [split; [isnamed|now left]|destruct zs; [congruence|discriminate]|].
  clear N. induction zs as [|z zs IH]; cbn; constructor; [|exact IH]. split; [apply show_arg|apply D].
Qed.
Lemma upto_range n : range 0 (n + 1) = upto n.
Proof. unfold range, upto. rewrite Z.sub_0_r. reflexivity. Qed.
Lemma upto_some n : (0 <= n)%Z -> upto n <> [].
Proof. intros H. unfold upto. destruct (Z.to_nat (n + 1)) eqn:E; [lia|discriminate]. Qed.
Lemma srg_dim f d : In (f, d) srg -> (0 <= d)%Z /\ forall e, arglike e f.
Proof.
  intros H. assert (X : (0 <= d)%Z /\ exists r, f = "s" ++ r).
  { unfold srg in H. repeat (destruct H as [H|H]; [injection H as <- <-; split; [lia|eexists; reflexivity]|]). destruct H. }
  destruct X as [X (r & ->)]. split; [exact X|]. intros e. apply plain_text. discriminate.
Qed.

Theorem C68_sr e l its first last name rf size m folder :
  decimal e -> command e l its ->
  ~ In "--seed" l -> ~ In "--dataset" l -> ~ In "--readout_dims" l ->
  given e its "start_seed" (VInt first) -> given e its "stop_seed" (VInt last) ->
  given e its "exp_name" (VStr name) -> given e its "result_folder" (VStr rf) ->
  (In "--max_ring_size" l -> given e its "max_ring_size" (VInt size)) -> given e its "max_dim" (VInt m) -> (0 <= m)%Z ->
  ~ (In "--max_dim" l /\ In "--max_ring_size" l) ->
  inside rf ("SR-" ++ name ++ (if in_dec string_dec "--max_ring_size" l then "-" ++ NilEmpty.string_of_int (Z.to_int size) else ""))
    folder ->
  arglike e folder ->
  let n := Z.to_nat (last + 1 - first) in
  exists nss, sr_script e l = Ok nss /\ List.length nss = (9 * n)%nat /\
    forall i ns, nth_error nss i = Some ns ->
    exists family dim top, nth_error srg (i / n) = Some (family, dim) /\
      (In "--max_dim" l -> top = m) /\ (In "--max_ring_size" l -> top = 2%Z) /\
      (~ In "--max_dim" l -> ~ In "--max_ring_size" l -> top = dim) /\
      says e (its ++ [("result_folder", VStr folder); ("dataset", VStr family); ("seed", VInt (first + Z.of_nat (i mod n)));
                      ("max_dim", VInt top); ("readout_dims", VInts (upto top))]) ns.
Proof.
  intros D C N1 N2 N3 G1 G2 G3 G4 G5 G6 Hm X I A n. unfold sr_script.
  apply among_not in N1, N2, N3. rewrite N1, N2, N3. cbn [assert_ bind].
  destruct (parse_complete _ _ _ C) as (ns & E & S). rewrite E. cbn [bind].
  rewrite (says_given _ _ _ _ _ S G1), (says_given _ _ _ _ _ S G2), (says_given _ _ _ _ _ S G3), (says_given _ _ _ _ _ S G4),
    (says_given _ _ _ _ _ S G6). cbn [as_int as_str].
  set (base := if among "--max_ring_size" l then _ else _).
  assert (B : base = "SR-" ++ name ++ (if in_dec string_dec "--max_ring_size" l then "-" ++ NilEmpty.string_of_int (Z.to_int size) else "")).
  { unfold base. destruct (in_dec string_dec "--max_ring_size" l) as [R|R].
    - rewrite (says_given _ _ _ _ _ S (G5 R)). cbn [show_val]. apply among_In in R. rewrite R. cbn [append].
      reflexivity.
    - rewrite <- among_In in R. apply not_true_iff_false in R. rewrite R, app_nil. reflexivity. }
  rewrite <- B in I. rewrite (join_inside rf base folder); [|rewrite B; discriminate|exact I]. rewrite B in I. clear B base.
  assert (Fold : forall o, lacks "S" o -> o <> "--result_folder" -> In o (l ++ ["--result_folder"; folder]) <-> In o l).
  { intros o L N. rewrite in_app_iff. cbn. split; [|auto]. intros [H|[H|[H|[]]]]; [exact H|congruence|].
    exfalso. symmetry in H. revert H. eapply folder_fresh; [exact I|exact L]. }
  assert (Md : among "--max_dim" (l ++ ["--result_folder"; folder]) = among "--max_dim" l).
  { apply eq_true_iff_eq. rewrite !among_In. apply Fold; [|discriminate]. vm_compute. intuition discriminate. }
  assert (Mr : among "--max_ring_size" (l ++ ["--result_folder"; folder]) = among "--max_ring_size" l).
  { apply eq_true_iff_eq. rewrite !among_In. apply Fold; [|discriminate]. vm_compute. intuition discriminate. }
  clear Fold. rewrite Md, Mr. clear Md Mr.
  set (f := fun fs : string * Z * Z => _).
  set (P := fun (fs : string * Z * Z) (ns : space) => exists top,
      (In "--max_dim" l -> top = m) /\ (In "--max_ring_size" l -> top = 2%Z) /\
      (~ In "--max_dim" l -> ~ In "--max_ring_size" l -> top = snd (fst fs)) /\
      says e (its ++ [("result_folder", VStr folder); ("dataset", VStr (fst (fst fs))); ("seed", VInt (snd fs));
                      ("max_dim", VInt top); ("readout_dims", VInts (upto top))]) ns).
  destruct (mapM_all f P (list_prod sr_families (range first (last + 1)))) as (nss & M & F).
  { intros [[g d] s] Hin. unfold f, P. cbn [fst snd].
    apply in_prod_iff in Hin as [Hg _]. change sr_families with srg in Hg. apply srg_dim in Hg as [Hd Ag].
    assert (CF : command e (l ++ ["--result_folder"; folder]) (its ++ [("result_folder", VStr folder)])).
    { apply command_app; [exact C|]. apply command_one, (str_item e "result_folder"); [exact A|isnamed]. }
    assert (CD : command e ["--dataset"; g; "--seed"; show s] [("dataset", VStr g); ("seed", VInt s)]).
    { apply (command_app e ["--dataset"; g] [("dataset", VStr g)] ["--seed"; show s] [("seed", VInt s)]); apply command_one.
      - apply (str_item e "dataset"); [apply Ag|isnamed].
      - apply (int_item e "seed"); [exact D|isnamed]. }
    assert (CM : forall t, command e ["--max_dim"; show t] [("max_dim", VInt t)]).
    { intros t. apply command_one, (int_item e "max_dim"); [exact D|isnamed]. }
    assert (CR : forall t, (0 <= t)%Z -> command e ("--readout_dims" :: map show (upto t)) [("readout_dims", VInts (upto t))]).
    { intros t Ht. apply command_one, ints_item; [exact D|now apply upto_some]. }
    assert (Add : forall t, (0 <= t)%Z -> exists ns,
        parse_args e ((((l ++ ["--result_folder"; folder]) ++ ["--dataset"; g; "--seed"; show s]) ++ ["--max_dim"; show t]) ++
           "--readout_dims" :: map show (range 0 (t + 1))) = Ok ns /\
        says e (its ++ [("result_folder", VStr folder); ("dataset", VStr g); ("seed", VInt s); ("max_dim", VInt t);
                        ("readout_dims", VInts (upto t))]) ns).
    { intros t Ht. apply parse_complete. rewrite upto_range.
      replace (its ++ [("result_folder", VStr folder); ("dataset", VStr g); ("seed", VInt s); ("max_dim", VInt t);
                        ("readout_dims", VInts (upto t))])%list
        with ((((its ++ [("result_folder", VStr folder)]) ++ [("dataset", VStr g); ("seed", VInt s)]) ++ [("max_dim", VInt t)]) ++
              [("readout_dims", VInts (upto t))])%list by (rewrite <- !app_assoc; reflexivity).
      apply command_app; [|now apply CR]. apply command_app; [|apply CM]. now apply command_app. }
    destruct (among "--max_dim" l) eqn:Q1; destruct (among "--max_ring_size" l) eqn:Q2; cbn [negb].
    - exfalso. apply X. rewrite <- !among_In. auto.
    - cbn [assert_ bind]. apply not_true_iff_false in Q2. rewrite among_In in Q1, Q2.
      destruct (parse_complete e ((((l ++ ["--result_folder"; folder]) ++ ["--dataset"; g; "--seed"; show s])) ++
           "--readout_dims" :: map show (range 0 (m + 1)))
        (((its ++ [("result_folder", VStr folder)]) ++ [("dataset", VStr g); ("seed", VInt s)]) ++
              [("readout_dims", VInts (upto m))])) as (ns' & E' & S').
      { rewrite upto_range. apply command_app; [apply command_app; [exact CF|exact CD]|now apply CR]. }
      exists ns'. split; [exact E'|]. exists m. split; [reflexivity|]. split; [contradiction|]. split; [contradiction|].
      intros o k d' Ho. rewrite (S' o k d' Ho), <- !app_assoc. cbn [List.app]. rewrite !final_app. cbn [final].
      destruct (string_dec o "max_dim") as [->|]; [|reflexivity].
      destruct (string_dec "max_dim" "readout_dims") as [|_]; [discriminate|].
      destruct (string_dec "max_dim" "seed") as [|_]; [discriminate|].
      destruct (string_dec "max_dim" "dataset") as [|_]; [discriminate|].
      destruct (string_dec "max_dim" "result_folder") as [|_]; [discriminate|].
      rewrite <- (S _ _ _ Ho). exact (says_given _ _ _ _ _ S G6).
    - cbn [bind]. apply not_true_iff_false in Q1. rewrite among_In in Q1, Q2.
      destruct (Add 2%Z ltac:(lia)) as (ns' & E' & S'). exists ns'. split; [exact E'|]. exists 2%Z. tauto.
    - cbn [bind]. apply not_true_iff_false in Q1, Q2. rewrite among_In in Q1, Q2.
      destruct (Add d Hd) as (ns' & E' & S'). exists ns'. split; [exact E'|]. exists d. tauto. }
  exists nss. split; [exact M|]. apply forall2_nth in F as [F1 F2].
  rewrite prod_length, !range_length in F1. change (List.length sr_families) with 9%nat in F1. fold n in F1.
  split; [now symmetry|]. intros i ns' H. destruct (F2 i ns' H) as ([[g d] s] & Es & Hs).
  assert (Li : (i < 9 * n)%nat) by (rewrite F1; apply nth_error_Some; congruence).
  rewrite prod_nth in Es; rewrite range_length in *; fold n in Es |- *; [|fold n; lia].
  change sr_families with srg in Es. rewrite range_nth in Es by (fold n; apply Nat.mod_upper_bound; lia).
  destruct (nth_error srg (i / n)) as [[g' d']|]; [|discriminate]. injection Es as -> -> <-.
  destruct Hs as (top & T1 & T2 & T3 & T4). exists g, d, top. auto.
Qed.
Theorem C68_sr_only e l nss : sr_script e l = Ok nss ->
  ~ In "--seed" l /\ ~ In "--dataset" l /\ ~ In "--readout_dims" l /\ exists its, command e l its.
Proof.
  unfold sr_script. destruct (among "--seed" l) eqn:N1; [discriminate|]. destruct (among "--dataset" l) eqn:N2; [discriminate|].
  destruct (among "--readout_dims" l) eqn:N3; [discriminate|].
  cbn [negb assert_ bind]. destruct (parse_args e l) as [ns|] eqn:E; [|discriminate]. intros _.
  apply parse_sound in E as (its & C & _). rewrite <- !among_In. repeat split; [congruence|congruence|congruence|eauto].
Qed.

(** ** Cases *)
Definition table (s : string) : option Q :=
  match find (fun o => s =? fst o)
    [("0.0", 0); ("0.5", 1 # 2); ("0.15", 3 # 20); ("0.001", 1 # 1000); ("0.0001", 1 # 10000); ("5e-4", 1 # 2000);
     ("1e-6", 1 # 1000000); ("5", 5); ("15", 15); ("20", 20)] with
  | Some (_, q) => Some q | None => None end.
Definition here : env :=
  mkEnv (fun s => option_map Z.of_int (NilEmpty.int_of_string s)) table "/cwn/exp/results" "1700000000.25".
Lemma here_decimal : decimal here.
Proof. intros z. cbn. rewrite NilEmpty.isi. cbn. now rewrite DecimalZ.of_to. Qed.

Ltac an_item := first
  [ apply flag; split; [isnamed|now left]
  | eapply value; [split; [isnamed|now left]|apply plain_text; discriminate|constructor; first [reflexivity|eassumption|cbn; tauto]]
  ].

(** Abbreviations, equal signs, several values, a value given twice, negative numbers. *)
Example command_example :
  command here ["--mod"; "cin"; "--readout_dims"; "0"; "2"; "--batch_size=64"; "--fold"; "-1"; "--minimize"; "--model"; "gin";
                "--exp_name=--x y"]
    [("model", VStr "cin"); ("readout_dims", VInts [0; 2]%Z); ("batch_size", VInt 64); ("fold", VInt (-1)); ("minimize", VBool true);
     ("model", VStr "gin"); ("exp_name", VStr "--x y")].
Proof.
  apply (one_more here ["--mod"; "cin"]).
  { eapply value; [|apply plain_text; discriminate|constructor]. split; [isnamed|]. right.
    assert (M : matching here "--mod" = [("model", KStr)]) by (vm_compute; reflexivity).
    assert (N : exact here "--mod" = None) by (vm_compute; reflexivity).
    apply matching_one in M as (M1 & M2 & M3). split; [|split; assumption]. now apply exact_none. }
  apply (one_more here ["--readout_dims"; "0"; "2"]).
  { apply several; [split; [isnamed|now left]|discriminate|]. constructor; [|constructor; [|constructor]];
      (split; [apply plain_text; discriminate|reflexivity]). }
  apply (one_more here ["--batch_size=64"]).
  { apply (equals here "--batch_size" "64" _ KInt); [split; [isnamed|now left]|now constructor]. }
  apply (one_more here ["--fold"; "-1"]).
  { apply (value here "--fold" "-1" _ KInt); [split; [isnamed|now left]| |now constructor].
    apply (negative_integer here "1"); [|discriminate]. constructor; [cbn; tauto|constructor]. }
  apply (one_more here ["--minimize"]). { an_item. }
  apply (one_more here ["--model"; "gin"]). { an_item. }
  apply (one_more here ["--exp_name=--x y"]); [|constructor].
  apply (equals here "--exp_name" "--x y" _ KStr); [split; [isnamed|now left]|constructor].
Qed.
Example parse_example :
  match parse_args here ["--mod"; "cin"; "--readout_dims"; "0"; "2"; "--batch_size=64"; "--fold"; "-1"; "--minimize"; "--model"; "gin"] with
  | Ok ns => ns "model" = VStr "gin" /\ ns "fold" = VInt (-1) /\ ns "seed" = VInt 43 /\ ns "readout_dims" = VInts [0; 2]%Z
  | Err _ => False
  end.
Proof. vm_compute. auto. Qed.
Example parse_wrong : map (parse_args here) [["--lr"]; ["--readout"; "-x"]; ["--m"; "3"]; ["--seed"; "x"]; ["4"]; ["--tune=1"]; ["-h"]] =
  repeat (Err SystemExit) 7.
Proof. vm_compute. reflexivity. Qed.
Example tu_example : exists nss, tu_runs here ["--dataset"; "PTC"] = Ok nss /\ map (fun ns => (ns "dataset", ns "fold")) nss =
  map (fun i => (VStr "PTC", VInt i)) [0; 1; 2; 3; 4; 5; 6; 7; 8; 9]%Z.
Proof.
  destruct (tu_runs here ["--dataset"; "PTC"]) as [nss|] eqn:E; [|vm_compute in E; discriminate]. exists nss.
  split; [reflexivity|]. assert (X : (let* nss := tu_runs here ["--dataset"; "PTC"] in Ok (map (fun ns => (ns "dataset", ns "fold")) nss)) =
    Ok (map (fun i => (VStr "PTC", VInt i)) [0; 1; 2; 3; 4; 5; 6; 7; 8; 9]%Z)) by (vm_compute; reflexivity).
  rewrite E in X. cbn [bind] in X. congruence.
Qed.
Definition seen (r : result (list space)) (os : list string) : result (list (list val)) :=
  let* nss := r in Ok (map (fun ns => map ns os) nss).
Example mol_example : seen (mol_script here ["--dataset"; "CSL"; "--start_seed"; "3"; "--stop_seed"; "4"; "--folds"; "2"]) ["seed"; "fold"] =
  Ok (map (map VInt) [[3; 0]; [3; 1]; [4; 0]; [4; 1]])%Z.
Proof. vm_compute. reflexivity. Qed.
Example ring_example : seen (ring_script here ["--stop_seed"; "0"; "--model"; "gin_ring"]) ["fold"; "max_ring_size"; "num_layers"; "seed"] =
  Ok (map (map VInt) [[0; 10; 5; 0]; [1; 12; 6; 0]; [2; 14; 7; 0]; [3; 16; 8; 0]; [4; 18; 9; 0]; [5; 20; 10; 0]; [6; 22; 11; 0];
                      [7; 24; 12; 0]; [8; 26; 13; 0]; [9; 28; 14; 0]; [10; 30; 15; 0]])%Z.
Proof. vm_compute. reflexivity. Qed.
Example sr_example : seen (sr_script here ["--stop_seed"; "0"; "--max_ring_size"; "6"; "--exp_name"; "x"])
    ["dataset"; "max_dim"; "readout_dims"; "result_folder"] =
  Ok (map (fun f => [VStr (fst f); VInt 2; VInts [0; 1; 2]%Z; VStr "/cwn/exp/results/SR-x-6"]) srg).
Proof. vm_compute. reflexivity. Qed.

(** ** What the checks of the scripts miss *)

(** The check of run_tu_exp that no fold is given never sees the option: it is replaced without a
    word; an experiment called "fold" is turned away instead. *)
Theorem C68_tu_fold_refuted : ~ (forall e l, decimal e ->
  ((exists its, command e l its /\ ~ exists v, In ("fold", v) its) <-> exists nss, tu_runs e l = Ok nss)).
Proof.
  intros H. destruct (H here ["--fold"; "3"] here_decimal) as [_ H2].
  destruct H2 as (its & C & N).
  { destruct (C68_tu here ["--fold"; "3"] [("fold", VInt 3)] here_decimal) as (nss & E & _); [|intros [X|[X|[]]]; discriminate|eauto].
    apply command_one. an_item. }
  destruct (parse_complete _ _ _ C) as (ns & E & S). assert (F : ns "fold" = final its "fold" VNone) by (eapply S; isin).
  assert (V : ns "fold" = VInt 3).
  { assert (X : (let* ns := parse_args here ["--fold"; "3"] in Ok (ns "fold")) = Ok (VInt 3)) by (vm_compute; reflexivity).
    rewrite E in X. cbn [bind] in X. congruence. }
  rewrite V in F. apply N. clear - F. assert (X : forall its d, final its "fold" d = VInt 3 -> d <> VInt 3 -> exists v, In ("fold", v) its).
  { induction its0 as [|[n v] its0 IH]; intros d Hd Nd; [contradiction|]. cbn [final] in Hd.
    destruct (string_dec "fold" n) as [<-|]; [exists v; now left|]. destruct (IH d Hd Nd) as (v' & X). exists v'. now right. }
  eapply X; [symmetry; exact F|discriminate].
Qed.
Theorem C68_tu_fold_ignored e z : decimal e ->
  exists nss, tu_runs e ["--fold"; NilEmpty.string_of_int (Z.to_int z)] = Ok nss /\
    Forall2 (fun i ns => ns "fold" = VInt i) [0; 1; 2; 3; 4; 5; 6; 7; 8; 9]%Z nss.
Proof.
  change (NilEmpty.string_of_int (Z.to_int z)) with (show z).
  intros D. destruct (C68_tu e ["--fold"; show z] [("fold", VInt z)] D) as (nss & E & F).
  - apply command_one, (int_item e "fold"); [exact D|isnamed].
  - intros [X|[X|[]]]; [discriminate|]. pose proof (D z) as Dz. fold (show z) in Dz. rewrite X in Dz.
    assert (Y := f_equal letters X). unfold show in Y. destruct z as [|p|p]; cbn in Y; try discriminate.
    + pose proof (uint_digits (Pos.to_uint p)) as U. unfold digits, letters in U. rewrite Y in U. inversion U as [|? ? Q _ R]; subst.
      cbn in Q. intuition discriminate.
  - exists nss. split; [exact E|]. clear E. induction F as [|i ns is nss Hi F IH]; [constructor|]. constructor; [|exact IH].
    rewrite (Hi "fold" KInt VNone) by isin. reflexivity.
Qed.
Theorem C68_tu_name_refuted e : (exists its, command e ["--exp_name"; "fold"] its) /\
  tu_runs e ["--exp_name"; "fold"] = Err AssertionError.
Proof. split; [|reflexivity]. exists [("exp_name", VStr "fold")]. apply command_one. an_item. Qed.

(** The checks of the other scripts miss "--seed=5" and "--see 5": the seed is ignored. *)
Theorem C68_mol_seed_ignored e z : decimal e ->
  (exists its, command e ["--seed=" ++ NilEmpty.string_of_int (Z.to_int z)] its /\ given e its "seed" (VInt z)) /\
  exists nss, mol_script e ["--seed=" ++ NilEmpty.string_of_int (Z.to_int z)] = Ok nss /\ List.length nss = 10%nat /\
    forall i ns, nth_error nss i = Some ns -> ns "seed" = VInt (Z.of_nat i).
Proof.
  change (NilEmpty.string_of_int (Z.to_int z)) with (show z).
  intros D. assert (C : command e ["--seed=" ++ show z] [("seed", VInt z)]).
  { apply command_one, (equals e "--seed" (show z) _ KInt); [split; [isnamed|now left]|constructor; apply D]. }
  split.
  - exists [("seed", VInt z)]. split; [exact C|]. exists KInt, (VInt 43). split; [isin|reflexivity].
  - destruct (C68_mol e ["--seed=" ++ show z] [("seed", VInt z)] 0 9 D C) as (nss & E & L & F).
    + intros [X|[]]. discriminate.
    + intros [X|[]]. discriminate.
    + exists KInt, (VInt 0). split; [isin|reflexivity].
    + exists KInt, (VInt 9). split; [isin|reflexivity].
    + lia.
    + exists KInt, VNone. split; [isin|reflexivity].
    + exists nss. split; [exact E|]. split; [exact L|]. intros i ns H.
      rewrite (F i ns H "seed" KInt (VInt 43)) by isin. reflexivity.
Qed.

(** run_sr_exp looks for the text "--max_ring_size" among its arguments: written with an equal
    sign it is missed, and the first run fails. *)
Theorem C68_sr_ring_refuted w :
  (exists nss ns s, sr_script here ["--stop_seed"; "0"; "--max_ring_size"; "6"; "--untrained"; "--task_type"; "isomorphism"; "--eval_metric"; "isomorphism"] = Ok nss /\
     nth_error nss 0 = Some ns /\ setup w (args_of ns) = Ok s) /\
  (exists nss ns, sr_script here ["--stop_seed"; "0"; "--max_ring_size=6"; "--untrained"; "--task_type"; "isomorphism"; "--eval_metric"; "isomorphism"] = Ok nss /\
     nth_error nss 0 = Some ns /\ setup w (args_of ns) = Err AssertionError).
Proof.
  split.
  - destruct (sr_script here _) as [nss|] eqn:E; [|vm_compute in E; discriminate]. exists nss.
    destruct (nth_error nss 0) as [ns|] eqn:N.
    2:{ vm_compute in E. injection E as <-. discriminate. }
    exists ns. eexists. split; [reflexivity|]. split; [reflexivity|].
    vm_compute in E. injection E as <-. injection N as <-. vm_compute. reflexivity.
  - destruct (sr_script here _) as [nss|] eqn:E; [|vm_compute in E; discriminate]. exists nss.
    destruct (nth_error nss 0) as [ns|] eqn:N.
    2:{ vm_compute in E. injection E as <-. discriminate. }
    exists ns. split; [reflexivity|]. split; [reflexivity|].
    vm_compute in E. injection E as <-. injection N as <-. vm_compute. reflexivity.
Qed.

(** ** What [main] gets *)
Definition typed (k : kind) (v : val) : Prop :=
  match k, v with
  | KFlag, VBool _ | KInt, VInt _ | KFloat, VFloat _ | KStr, VStr _ | KChoice _, VStr _ | KInts, VInts _ => True
  | _, _ => False
  end.
Lemma item_typed e ts n v : item e ts n v -> exists k, named e n k /\ typed k v.
Proof.
  intros H. destruct H as [t n S|t w n k x S A R|p w n k x S R|t vs n zs S N F|p w n z S E]; destruct S as [S _].
  - exists KFlag. now split.
  - exists k. split; [exact S|]. destruct R; exact I.
  - exists k. split; [exact S|]. destruct R; exact I.
  - exists KInts. now split.
  - exists KInts. now split.
Qed.
Lemma final_typed e l its : command e l its -> forall o k d v, In (o, (k, d)) (options e) -> v = d \/ typed k v ->
  final its o v = d \/ typed k (final its o v).
Proof.
  intros C. induction C as [|ts n x l its I C IH]; intros o k d v H T; [exact T|].
  cbn [final]. apply IH with (1 := H). destruct (string_dec o n) as [<-|_]; [|exact T].
  right. destruct (item_typed _ _ _ _ I) as (k' & (d' & H') & T').
  assert (X : (k, d) = (k', d')) by exact (nodup_fun _ _ _ _ (names_nodup e) H H'). injection X as -> _. exact T'.
Qed.

(** The fields that [main] reads, each from the option of its name. *)
Definition text_fields : list (string * (args -> string)) :=
  [("dataset", a_dataset); ("model", a_model); ("task_type", a_task); ("eval_metric", a_metric);
   ("lr_scheduler", a_sched); ("graph_norm", a_norm); ("nonlinearity", a_nonlin); ("readout", a_readout);
   ("final_readout", a_final); ("init_method", a_init); ("use_coboundaries", a_cob);
   ("train_orient", a_train_orient); ("test_orient", a_test_orient); ("result_folder", a_result); ("exp_name", a_exp)].
Definition flag_fields : list (string * (args -> bool)) :=
  [("include_down_adj", a_down); ("minimize", a_minimize); ("simple_features", a_simple); ("untrained", a_untrained);
   ("use_edge_features", a_edge); ("tune", a_tune)].
Definition number_fields : list (string * (args -> nat)) :=
  [("max_dim", a_max_dim); ("num_layers", a_layers); ("emb_dim", a_emb)].
Definition maybe_fields : list (string * (args -> option Z)) := [("fold", a_fold); ("max_ring_size", a_ring)].

(** Every field is what the command line says of its option, or the default of this option; two options
    never take each other's place. *)
Theorem C68_arguments e l its : command e l its -> exists ns, parse_args e l = Ok ns /\
  let a := args_of ns in
  Forall (fun of => given e its (fst of) (VStr (snd of a))) text_fields /\
  Forall (fun of => given e its (fst of) (VBool (snd of a))) flag_fields /\
  Forall (fun of => exists z, given e its (fst of) (VInt z) /\ snd of a = Z.to_nat z) number_fields /\
  Forall (fun of => given e its (fst of) (match snd of a with Some z => VInt z | None => VNone end)) maybe_fields /\
  given e its "jump_mode" (match a_jump a with Some s => VStr s | None => VNone end) /\
  given e its "seed" (VInt (a_seed a)) /\
  exists q, given e its "drop_rate" (VFloat q) /\ (a_drop0 a = true <-> (q == 0)%Q).
Proof.
  intros C. destruct (parse_complete _ _ _ C) as (ns & E & S). exists ns. split; [exact E|]. cbv zeta.
  assert (G : forall o k d, In (o, (k, d)) (options e) -> given e its o (ns o) /\ (ns o = d \/ typed k (ns o))).
  { intros o k d H. split; rewrite (S o k d H); [exists k, d; now split|].
    apply (final_typed e l its C o k d d H). now left. }
  assert (st : forall o k d, In (o, (k, VStr d)) (options e) -> match k with KStr | KChoice _ => True | _ => False end ->
    given e its o (VStr (as_str (ns o)))).
  { intros o k d H K. destruct (G _ _ _ H) as [G1 G2]. destruct (ns o); cbn [as_str]; try exact G1;
      destruct k; cbn in *; try contradiction; destruct G2 as [G2|G2]; (discriminate || contradiction). }
  assert (bo : forall o d, In (o, (KFlag, VBool d)) (options e) -> given e its o (VBool (as_bool (ns o)))).
  { intros o d H. destruct (G _ _ _ H) as [G1 [G2|G2]]; destruct (ns o); cbn in *; try contradiction; try discriminate; exact G1. }
  assert (it : forall o d, In (o, (KInt, VInt d)) (options e) -> given e its o (VInt (as_int (ns o)))).
  { intros o d H. destruct (G _ _ _ H) as [G1 [G2|G2]]; destruct (ns o); cbn in *; try contradiction; try discriminate; exact G1. }
  assert (mi : forall o, In (o, (KInt, VNone)) (options e) -> given e its o (match opt_int (ns o) with Some z => VInt z | None => VNone end)).
  { intros o H. destruct (G _ _ _ H) as [G1 [G2|G2]]; destruct (ns o); cbn in *; try contradiction; try discriminate; exact G1. }
  repeat apply conj.
  - unfold text_fields. repeat apply Forall_cons; [..|apply Forall_nil]; cbn [fst snd args_of a_dataset a_model a_task a_metric a_sched a_norm a_nonlin a_readout a_final a_init a_cob a_train_orient a_test_orient a_result a_exp];
      (eapply st; [isin|exact I]).
  - unfold flag_fields. repeat apply Forall_cons; [..|apply Forall_nil]; cbn [fst snd args_of a_down a_minimize a_simple a_untrained a_edge a_tune]; eapply bo; isin.
  - unfold number_fields. repeat apply Forall_cons; [..|apply Forall_nil]; cbn [fst snd args_of a_max_dim a_layers a_emb]; (eexists; split; [eapply it; isin|reflexivity]).
  - unfold maybe_fields. repeat apply Forall_cons; [..|apply Forall_nil]; cbn [fst snd args_of a_fold a_ring]; apply mi; isin.
  - assert (H : In ("jump_mode", (KStr, VNone)) (options e)) by isin. cbn [args_of a_jump].
    destruct (G _ _ _ H) as [G1 [G2|G2]]; destruct (ns "jump_mode"); cbn in *; try contradiction; try discriminate; exact G1.
  - cbn [args_of a_seed]. eapply it; isin.
  - assert (H : In ("drop_rate", (KFloat, VFloat 0)) (options e)) by isin. cbn [args_of a_drop0].
    destruct (G _ _ _ H) as [G1 [G2|G2]]; destruct (ns "drop_rate") as [| |q| | |]; cbn in *; try contradiction; try discriminate;
      exists q; (split; [exact G1|apply Qeq_bool_iff]).
Qed.
Example C68_arguments_ex :
  exists ns, parse_args here ["--readout"; "mean"; "--max_dim=3"; "--untrained"] = Ok ns /\
    a_readout (args_of ns) = "mean" /\ a_final (args_of ns) = "sum" /\ a_max_dim (args_of ns) = 3%nat /\
    a_untrained (args_of ns) = true.
Proof. eexists. split; [vm_compute; reflexivity|]. vm_compute. auto. Qed.

Print Assumptions C68_parse.
Print Assumptions C68_tu.
Print Assumptions C68_tu_only.
Print Assumptions C68_mol.
Print Assumptions C68_mol_folds.
Print Assumptions C68_mol_only.
Print Assumptions C68_ring.
Print Assumptions C68_ring_only.
Print Assumptions C68_sr.
Print Assumptions C68_sr_only.
Print Assumptions C68_tu_fold_refuted.
Print Assumptions C68_tu_fold_ignored.
Print Assumptions C68_tu_name_refuted.
Print Assumptions C68_mol_seed_ignored.
Print Assumptions C68_sr_ring_refuted.
Print Assumptions C68_arguments.
