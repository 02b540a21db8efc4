(** The loop of [__collect__]: what it stores, when it succeeds, and that the iteration order of the
    set of arguments does not matter. *)
From Coq Require Import String List Arith Lia Bool Permutation.
From Verif Require Import Base ScatterModel ComplexModel MPModel CollectModel CollectSpec.
Import ListNotations.
Open Scope nat_scope.

Section Loop.
Context {V : Type}.
Variables (forth : bool) (index : option (list (nat * nat))) (a : adjacency) (kwargs : dict V).

Inductive plan := Skip | Store (v : pyval V) | Bad | Lift (data : list V) (ix : list (nat * nat)) (r : nat) (size_data : pyval V) (dim : nat).

Definition plan_of (arg : string) : plan :=
  let (i, j) := if forth then (1, 0) else (0, 1) in
  if negb (String.eqb (last2 arg) "_i" || String.eqb (last2 arg) "_j") then Store (kwargs arg)
  else match index with
  | None => Skip
  | Some ix =>
      let dim := if String.eqb (last2 arg) "_j" then 0 else 1 in
      let found := match a with
        | Up => if starts "up_" arg then Some (kwargs (slice 3 arg), kwargs (slice 3 arg)) else None
        | Down => if starts "down_" arg then Some (kwargs (slice 5 arg), kwargs (slice 5 arg)) else None
        | Bnd => if starts "boundary_" arg then
                   if dim =? 0 then Some (kwargs "boundary_attr"%string, kwargs (slice 9 arg))
                   else Some (kwargs (slice 9 arg), kwargs (slice 9 arg))
                 else None
        end in
      match found with
      | None => Skip
      | Some (PSeq, _) => Bad
      | Some (PRows data, size_data) => Lift data ix (if String.eqb (last2 arg) "_j" then j else i) size_data dim
      | Some (data, _) => Store data
      end
  end.

Definition run_plan (p : plan) (arg : string) (st : dict V * sizes) : result (dict V * sizes) :=
  match p with
  | Skip => Ok st
  | Store v => Ok (put (fst st) arg v, snd st)
  | Bad => Err ValueError
  | Lift data ix r sd dim =>
      let* s := set_size (snd st) dim sd in let* l := lift data ix r in Ok (put (fst st) arg (PRows l), s)
  end.

Lemma collect_arg_plan st arg : collect_arg forth index a kwargs st arg = run_plan (plan_of arg) arg st.
Proof.
  unfold collect_arg, plan_of. destruct st as [out size], forth.
  all: destruct (negb _); [reflexivity|]; destruct index as [ix|]; [|reflexivity]; cbv zeta;
    match goal with |- context [match ?f with Some _ => _ | None => _ end] => destruct f as [[d sd]|] end; [|reflexivity]; destruct d; reflexivity.
Qed.

(** The value stored for an argument. *)
Definition stored (arg : string) (old v : pyval V) : Prop :=
  match plan_of arg with
  | Skip => v = old
  | Store w => v = w
  | Bad => False
  | Lift data ix r _ _ => exists l, lift data ix r = Ok l /\ v = PRows l
  end.

Lemma stored_again arg old v w : stored arg old v -> stored arg v w -> stored arg old w.
Proof. unfold stored. destruct (plan_of arg); intros; subst; auto. Qed.

Lemma loop_stored : forall args d s d' s', foldM (collect_arg forth index a kwargs) (d, s) args = Ok (d', s') ->
  forall n, (In n args -> stored n (d n) (d' n)) /\ (~ In n args -> d' n = d n).
Proof.
  induction args as [|b args IH]; intros d s d' s' H n; cbn [foldM] in H.
  - inversion H; subst. split; [intros []|auto].
  - rewrite collect_arg_plan in H. apply bind_ok in H as ((d1 & s1) & H1 & H2). specialize (IH _ _ _ _ H2 n).
    assert (E : (n = b -> stored n (d n) (d1 n)) /\ (n <> b -> d1 n = d n)).
    { unfold stored. destruct (plan_of b) as [|v| |data ix r sd dim] eqn:EP; cbn [run_plan fst snd] in H1.
      - inversion H1; subst. split; auto. intros ->. rewrite EP. auto.
      - inversion H1; subst. unfold put. split; intros Hn; [subst; rewrite EP, String.eqb_refl; auto|].
        destruct (String.eqb_spec n b); congruence.
      - discriminate.
      - apply bind_ok in H1 as (s2 & H3 & H4). apply bind_ok in H4 as (l & H5 & H6). inversion H6; subst. unfold put.
        split; intros Hn; [subst; rewrite EP, String.eqb_refl; eauto|]. destruct (String.eqb_spec n b); congruence. }
    destruct E as [E1 E2]. destruct IH as [I1 I2]. destruct (string_dec n b) as [->|Hb].
    + split; [|intros Hn; elim Hn; left; auto]. intros _. destruct (in_dec string_dec b args) as [Hi|Hi].
      * eapply stored_again; eauto.
      * rewrite I2; auto.
    + split; [intros [->|Hi]; [congruence|]; rewrite <- E2; auto|]. intros Hn. rewrite I2, E2; auto. intros Hc. elim Hn. right; auto.
Qed.

(** When the loop succeeds. *)
Definition lifts (arg : string) (dim n : nat) : Prop :=
  exists data ix r l, plan_of arg = Lift data ix r (PRows l) dim /\ n = List.length l.
Definition fine (arg : string) : Prop :=
  match plan_of arg with
  | Bad => False
  | Lift data ix r sd _ => (exists l, sd = PRows l) /\ exists l, lift data ix r = Ok l
  | _ => True
  end.
Definition compat (s : sizes) (dim n : nat) : Prop := size_at s dim = None \/ size_at s dim = Some n.

Lemma lift_dim arg data ix r sd dim : plan_of arg = Lift data ix r sd dim -> dim < 2.
Proof.
  unfold plan_of. destruct forth. all: destruct (negb _); [discriminate|]; destruct index; [|discriminate]; cbv zeta;
    match goal with |- context [match ?f with Some _ => _ | None => _ end] => destruct f as [[d sd']|] end; [|discriminate];
    destruct d; try discriminate; intros H; injection H as <- <- <- <- <-; destruct (String.eqb _ _); lia.
Qed.

Lemma size_at_put s dim n dim' : dim < 2 -> dim' < 2 -> size_at (size_put s dim n) dim' = if dim =? dim' then Some n else size_at s dim'.
Proof. intros H H'. destruct dim as [|[|]], dim' as [|[|]]; try lia; destruct s; reflexivity. Qed.

Lemma set_size_ok s dim l : dim < 2 -> compat s dim (List.length l) -> exists s', set_size s dim (@PRows V l) = Ok s' /\
  forall dim', dim' < 2 -> size_at s' dim' = if dim =? dim' then Some (List.length l) else size_at s dim'.
Proof.
  intros Hd [H|H]; unfold set_size; rewrite H.
  - eexists. split; [reflexivity|]. intros; apply size_at_put; auto.
  - rewrite Nat.eqb_refl. eexists. split; [reflexivity|]. intros dim' Hd'. destruct (Nat.eqb_spec dim dim'); congruence.
Qed.
Lemma set_size_inv s dim sd s' : dim < 2 -> set_size s dim sd = Ok s' -> exists l, sd = @PRows V l /\ compat s dim (List.length l) /\
  forall dim', dim' < 2 -> size_at s' dim' = if dim =? dim' then Some (List.length l) else size_at s dim'.
Proof.
  intros Hd H. destruct sd as [| |l| | | | |]; try discriminate. exists l. split; auto.
  assert (C : compat s dim (List.length l)).
  { unfold set_size in H. unfold compat. destruct (size_at s dim) as [n|]; auto. destruct (Nat.eqb_spec n (List.length l)); [|discriminate]. right. congruence. }
  split; auto. destruct (set_size_ok s dim l Hd C) as (s1 & E & Hs). rewrite H in E. injection E as <-. exact Hs.
Qed.

Lemma lift_dec arg dim : (exists k, lifts arg dim k) \/ (forall k, ~ lifts arg dim k).
Proof.
  unfold lifts. destruct (plan_of arg) as [|v| |data ix r sd dim0].
  1-3: right; intros k (? & ? & ? & ? & H & _); discriminate.
  destruct sd as [| |l| | | | |].
  3: destruct (Nat.eq_dec dim0 dim) as [->|Hn]; [left; exists (List.length l); eauto 8|].
  all: right; intros k (? & ? & ? & ? & H & _); congruence.
Qed.

Lemma loop_ok : forall args d s,
  (forall n, In n args -> fine n) ->
  (forall n dim k, In n args -> lifts n dim k -> compat s dim k) ->
  (forall n m dim k k', In n args -> In m args -> lifts n dim k -> lifts m dim k' -> k = k') ->
  exists d' s', foldM (collect_arg forth index a kwargs) (d, s) args = Ok (d', s') /\
    forall dim, dim < 2 -> (forall n k, In n args -> lifts n dim k -> size_at s' dim = Some k) /\
                ((forall n k, In n args -> ~ lifts n dim k) -> size_at s' dim = size_at s dim) /\
                (forall k, size_at s dim = Some k -> size_at s' dim = Some k).
Proof.
  induction args as [|b args IH]; intros d s Hf Hc Hu; cbn [foldM].
  - exists d, s. split; auto. intros. split; [intros ? ? []|auto].
  - rewrite collect_arg_plan.
    assert (ST : exists d1 s1, run_plan (plan_of b) b (d, s) = Ok (d1, s1) /\
      forall dim, dim < 2 -> (forall k, lifts b dim k -> size_at s1 dim = Some k) /\ ((forall k, ~ lifts b dim k) -> size_at s1 dim = size_at s dim)).
    { pose proof (Hf b (or_introl eq_refl)) as F. unfold fine in F. destruct (plan_of b) as [|v| |data ix r sd dim0] eqn:EP; cbn [run_plan fst snd].
      - exists d, s. split; auto. intros dim Hd. split; auto. intros k (? & ? & ? & ? & Hk & _). congruence.
      - exists (put d b v), s. split; auto. intros dim Hd. split; auto. intros k (? & ? & ? & ? & Hk & _). congruence.
      - destruct F.
      - destruct F as [(l & ->) (l' & El)]. pose proof (lift_dim _ _ _ _ _ _ EP) as Hd0.
        destruct (set_size_ok s dim0 l Hd0) as (s1 & E1 & E2).
        { apply (Hc b); [left; auto|]. unfold lifts. rewrite EP. eauto 8. }
        rewrite E1. cbn [bind]. rewrite El. cbn [bind]. do 2 eexists. split; [reflexivity|]. intros dim Hd. rewrite E2 by auto. split.
        + intros k (? & ? & ? & ? & Hk & ->). rewrite EP in Hk. injection Hk as -> -> -> <- ->. rewrite Nat.eqb_refl. auto.
        + intros Hn. destruct (Nat.eqb_spec dim0 dim) as [->|]; auto. exfalso. apply (Hn (List.length l)). unfold lifts. rewrite EP. eauto 8. }
    destruct ST as (d1 & s1 & E1 & E2). rewrite E1. cbn [bind].
    destruct (IH d1 s1) as (d' & s' & E & Hs).
    + intros n Hn. apply Hf. right; auto.
    + intros n dim k Hn Hl. assert (Hd : dim < 2) by (destruct Hl as (? & ? & ? & ? & Hl & _); eapply lift_dim; eauto). destruct (E2 dim Hd) as [A B].
      destruct (lift_dec b dim) as [(kb & Hb)|Hb].
      * right. rewrite (A kb Hb). f_equal. apply (Hu b n dim); auto; [left|right]; auto.
      * unfold compat. rewrite B by auto. apply (Hc n); auto. right; auto.
    + intros n m dim k k' Hn Hm. apply Hu; right; auto.
    + exists d', s'. split; auto. intros dim Hd. destruct (Hs dim Hd) as (A & B & C), (E2 dim Hd) as [D F]. split; [|split].
      * intros n k [->|Hn] Hl; eauto.
      * intros Hn. rewrite B; [apply F|]; intros; apply Hn; [left|right]; auto.
      * intros k Hk. apply C. destruct (lift_dec b dim) as [(kb & Hb)|Hb]; [|rewrite F; auto].
        rewrite (D kb Hb). destruct (Hc b dim kb (or_introl eq_refl) Hb); congruence.
Qed.

(** The converse. *)
Lemma loop_inv : forall args d s d' s', foldM (collect_arg forth index a kwargs) (d, s) args = Ok (d', s') ->
  (forall n, In n args -> fine n) /\
  (forall n dim k, In n args -> lifts n dim k -> compat s dim k /\ size_at s' dim = Some k) /\
  (forall dim k, dim < 2 -> size_at s dim = Some k -> size_at s' dim = Some k).
Proof.
  induction args as [|b args IH]; intros d s d' s' H; cbn [foldM] in H.
  - inversion H; subst. split; [intros ? []|]. split; [intros ? ? ? []|auto].
  - rewrite collect_arg_plan in H. apply bind_ok in H as ((d1 & s1) & H1 & H2). destruct (IH _ _ _ _ H2) as (I1 & I2 & I3). clear IH H2.
    assert (ST : fine b /\ (forall dim k, lifts b dim k -> compat s dim k /\ size_at s1 dim = Some k) /\
                 (forall dim k, dim < 2 -> size_at s dim = Some k -> size_at s1 dim = Some k)).
    { unfold fine, lifts. destruct (plan_of b) as [|v| |data ix r sd dim0] eqn:EP; cbn [run_plan fst snd] in H1.
      - inversion H1; subst. split; auto. split; auto. intros dim k (? & ? & ? & ? & Hk & _). discriminate.
      - inversion H1; subst. split; auto. split; auto. intros dim k (? & ? & ? & ? & Hk & _). discriminate.
      - discriminate.
      - pose proof (lift_dim _ _ _ _ _ _ EP) as Hd0.
        apply bind_ok in H1 as (s2 & H3 & H4). apply bind_ok in H4 as (l & H5 & H6). inversion H6; subst.
        destruct (set_size_inv _ _ _ _ Hd0 H3) as (l' & -> & C & E). split; [eauto|]. split.
        + intros dim k (? & ? & ? & ? & Hk & ->). injection Hk as -> -> -> <- ->. split; auto. rewrite E, Nat.eqb_refl; auto.
        + intros dim k Hd Hk. rewrite E by auto. destruct (Nat.eqb_spec dim0 dim) as [->|]; auto. destruct C; congruence. }
    destruct ST as (S1 & S2 & S3). split; [intros n [<-|Hn]; auto|]. split; [|auto].
    intros n dim k [<-|Hn] Hl.
    + destruct (S2 _ _ Hl) as [A B]. split; auto. apply I3; auto. destruct Hl as (? & ? & ? & ? & Hl & _). eapply lift_dim; eauto.
    + destruct (I2 _ _ _ Hn Hl) as [A B]. split; auto. unfold compat in *.
      assert (Hd : dim < 2) by (destruct Hl as (? & ? & ? & ? & Hl & _); eapply lift_dim; eauto).
      destruct (size_at s dim) as [q|] eqn:Eq; auto. right. rewrite (S3 _ _ Hd Eq) in A. destruct A; congruence.
Qed.

Lemma sizes_eq (s t : sizes) : (forall dim, dim < 2 -> size_at s dim = size_at t dim) -> s = t.
Proof. intros H. destruct s, t. pose proof (H 0 ltac:(lia)). pose proof (H 1 ltac:(lia)). cbn in *. congruence. Qed.

Lemma exists_lift_dec args dim : (exists n k, In n args /\ lifts n dim k) \/ (forall n k, In n args -> ~ lifts n dim k).
Proof.
  induction args as [|b args [(n & k & Hn & Hl)|IH]]; [right; intros ? ? []|left; exists n, k; split; [right|]; auto|].
  destruct (lift_dec b dim) as [(k & Hk)|Hb]; [left; exists b, k; split; [left|]; auto|].
  right. intros n k [<-|Hn]; auto.
Qed.

(** Only the set of arguments matters. *)
Lemma loop_order args args' d s d' s' : (forall n, In n args <-> In n args') ->
  foldM (collect_arg forth index a kwargs) (d, s) args = Ok (d', s') ->
  exists d'', foldM (collect_arg forth index a kwargs) (d, s) args' = Ok (d'', s') /\ forall n, d'' n = d' n.
Proof.
  intros HI H. destruct (loop_inv _ _ _ _ _ H) as (F & L & K).
  destruct (loop_ok args' d s) as (d2 & s2 & E & Hs).
  { intros n Hn. apply F, HI; auto. } { intros n dim k Hn Hl. apply (L n); auto. apply HI; auto. }
  { intros n m dim k k' Hn Hm Hl Hl'. apply HI in Hn, Hm. destruct (L _ _ _ Hn Hl), (L _ _ _ Hm Hl'). congruence. }
  destruct (loop_ok args d s) as (d3 & s3 & E3 & Hs3).
  { auto. } { intros n dim k Hn Hl. apply (L n); auto. }
  { intros n m dim k k' Hn Hm Hl Hl'. destruct (L _ _ _ Hn Hl), (L _ _ _ Hm Hl'). congruence. }
  rewrite H in E3. injection E3 as <- <-.
  assert (Es : s2 = s').
  { apply sizes_eq. intros dim Hd. destruct (Hs dim Hd) as (A & B & C). destruct (Hs3 dim Hd) as (A' & B' & C').
    destruct (exists_lift_dec args dim) as [(n & k & Hn & Hl)|Hno].
    - rewrite (A' n k); auto. apply (A n k); auto. apply HI; auto.
    - rewrite B', B; auto. intros n k Hn. apply Hno, HI; auto. }
  subst s2. exists d2. split; auto. intros n. destruct (loop_stored _ _ _ _ _ H n) as [P1 P2], (loop_stored _ _ _ _ _ E n) as [Q1 Q2].
  destruct (in_dec string_dec n args) as [Hi|Hi].
  - specialize (P1 Hi). specialize (Q1 (proj1 (HI n) Hi)). unfold stored in *. destruct (plan_of n); try congruence; try contradiction.
    destruct P1 as (l & El & ->), Q1 as (l' & El' & ->). congruence.
  - rewrite P2, Q2; auto. intros Hc. apply Hi, HI; auto.
Qed.
End Loop.
