(** Lemmas for C76. *)
From Coq Require Import String List Arith Bool ZArith Ascii Lia.
From Verif Require Import Base ComplexModel.
From Verif Require Import CollaterModel CollaterSpec.
Import ListNotations.
Open Scope nat_scope.

Section Proofs.
Context {V D DB T F F32 : Type}.
Variable batch_graphs : list D -> result DB.
Variable stack : list T -> result T.
Variable rows : T -> result (list T).
Variable to32 : F -> F32.
Variable of_int : Z -> F32.
Variable follow : list string.
Variable max_dim : nat.
Notation value := (value V D T F).
Notation batched := (batched V D DB T F F32).
Notation coll := (@coll V D DB T F F32 batch_graphs stack rows to32 of_int follow max_dim).
Notation collater := (@collater V D DB T F F32 batch_graphs stack rows to32 of_int follow max_dim).

Section Ind.
Variable P : value -> Prop.
Hypothesis Hleaf : forall v, is_leaf v -> P v.
Hypothesis Hmap : forall kvs, Forall (fun p => P (snd p)) kvs -> P (VMap kvs).
Hypothesis Hnamed : forall fs vs, Forall P vs -> P (VNamed fs vs).
Hypothesis Hseq : forall vs, Forall P vs -> P (VSeq vs).
Fixpoint value_deep (v : value) : P v :=
  match v with
  | VMap kvs => Hmap kvs ((fix go l : Forall (fun p => P (snd p)) l :=
                  match l with [] => Forall_nil _ | p :: r => Forall_cons p (value_deep (snd p)) (go r) end) kvs)
  | VNamed fs vs => Hnamed fs vs ((fix go l : Forall P l :=
                  match l with [] => Forall_nil _ | p :: r => Forall_cons p (value_deep p) (go r) end) vs)
  | VSeq vs => Hseq vs ((fix go l : Forall P l :=
                  match l with [] => Forall_nil _ | p :: r => Forall_cons p (value_deep p) (go r) end) vs)
  | v0 => Hleaf v0 I
  end.
End Ind.

Lemma assoc_find {A} k (l : list (string * A)) : assoc k l = find_key k l.
Proof.
  induction l as [|[k' a] l IH]; cbn; auto. destruct (string_dec k k') as [->|N]; [rewrite String.eqb_refl; auto|].
  rewrite (proj2 (String.eqb_neq _ _) N). auto.
Qed.
Lemma heads_ok {A} (ls : list (list A)) hs ts : heads ls = Some (hs, ts) <-> Forall2 (fun l ht => l = fst ht :: snd ht) ls (combine hs ts) /\ length hs = length ls /\ length ts = length ls.
Proof.
  revert hs ts. induction ls as [|[|a l] ls IH]; intros hs ts; cbn.
  - split; [intros E; inversion E; subst; repeat split; constructor|]. intros (_ & H1 & H2). destruct hs, ts; try discriminate. auto.
  - split; [discriminate|]. intros (H & H1 & H2). destruct hs, ts; try discriminate. inversion H as [|? ? ? ? E]; subst. discriminate E.
  - destruct (heads ls) as [[hs' ts']|] eqn:E.
    + split.
      * intros X. inversion X; subst. destruct (proj1 (IH hs' ts') eq_refl) as (F1 & F2 & F3). cbn. repeat split; auto.
      * intros (H & H1 & H2). destruct hs as [|h hs], ts as [|t ts]; try discriminate. cbn in H. inversion H as [|? ? ? ? E1 E2]; subst. cbn in E1. inversion E1; subst.
        assert (X : Some (hs', ts') = Some (hs, ts)); [|inversion X; subst; auto]. apply IH. cbn in *. auto.
    + split; [discriminate|]. intros (H & H1 & H2). destruct hs as [|h hs], ts as [|t ts]; try discriminate. inversion H; subst.
      assert (X : None = Some (hs, ts)); [|discriminate X]. apply IH. cbn in *. auto.
Qed.
Lemma heads_nth {A} (ls : list (list A)) hs ts : heads ls = Some (hs, ts) ->
  Forall2 (fun l h => nth_error l 0 = Some h) ls hs /\ forall j us, Forall2 (fun l h => nth_error l j = Some h) ts us <-> Forall2 (fun l h => nth_error l (S j) = Some h) ls us.
Proof.
  revert hs ts. induction ls as [|[|a l] ls IH]; intros hs ts; cbn; intros E; try discriminate.
  - inversion E; subst. split; [constructor|]. intros j us. split; intros H; inversion H; constructor.
  - destruct (heads ls) as [[hs' ts']|]; [|discriminate]. inversion E; subst. destruct (IH hs' ts' eq_refl) as [H1 H2].
    split; [constructor; auto|]. intros j us. split; intros H; inversion H; subst; constructor; auto; apply H2; auto.
Qed.
Lemma heads_none {A} (ls : list (list A)) : heads ls = None -> forall j us, ~ Forall2 (fun l h => nth_error l j = Some h) ls us.
Proof.
  induction ls as [|[|a l] ls IH]; cbn; intros E j us H; try discriminate.
  - inversion H as [|? ? ? ? E1]; subst. destruct j; discriminate E1.
  - destruct (heads ls) as [[hs' ts']|]; [discriminate|]. inversion H; subst. eapply IH; eauto.
Qed.
Lemma Forall2_fun {A B} (f : A -> option B) l u u' : Forall2 (fun a b => f a = Some b) l u -> Forall2 (fun a b => f a = Some b) l u' -> u = u'.
Proof.
  intros H. revert u'. induction H as [|a b l u E H IH]; intros u' H'; inversion H' as [|? ? ? ? E']; subst; auto. rewrite E in E'. inversion E'; subst. f_equal. auto.
Qed.

Lemma zip_nth vs : forall ls l, zip_with coll vs ls = Ok l -> forall j,
  (forall b, nth_error l j = Some b -> exists v us, nth_error vs j = Some v /\ Forall2 (fun l h => nth_error l j = Some h) ls us /\ coll v us = Ok b) /\
  (forall v us, nth_error vs j = Some v -> Forall2 (fun l h => nth_error l j = Some h) ls us -> exists b, nth_error l j = Some b).
Proof.
  induction vs as [|v vs IH]; intros ls l E j; cbn in E.
  - inversion E; subst. split; [intros b X; destruct j; discriminate X|intros v us X; destruct j; discriminate X].
  - destruct (heads ls) as [[hs ts]|] eqn:Eh.
    + apply bind_ok in E as (b & Eb & E). apply bind_ok in E as (bs & Ebs & E). inversion E; subst l. clear E.
      destruct (heads_nth _ _ _ Eh) as [H0 HS]. specialize (IH ts bs Ebs). destruct j as [|j]; cbn [nth_error].
      * split; [|eauto]. intros b' X. inversion X; subst. exists v, hs. auto.
      * destruct (IH j) as [I1 I2]. split.
        -- intros b' X. destruct (I1 b' X) as (v' & us & E1 & E2 & E3). exists v', us. split; auto. split; auto. apply HS; auto.
        -- intros v' us E1 E2. eapply I2; eauto. apply HS; eauto.
    + inversion E; subst. split; [intros b X; destruct j; discriminate X|]. intros v' us _ H. exfalso. eapply heads_none; eauto.
Qed.
Lemma map_find rest kvs : forall l, map_with coll rest kvs = Ok l -> forall k,
  match find_key k kvs with
  | Some v => exists us b, mapM (getitem k) rest = Ok us /\ coll v us = Ok b /\ find_key k l = Some b
  | None => find_key k l = None
  end.
Proof.
  induction kvs as [|[k' v'] kvs IH]; intros l E k; cbn in E.
  - inversion E; subst. reflexivity.
  - apply bind_ok in E as (us & Eu & E). apply bind_ok in E as (b & Eb & E). apply bind_ok in E as (bs & Ebs & E). inversion E; subst l.
    cbn. destruct (string_dec k k') as [->|N].
    + exists us, b. auto.
    + apply IH; auto.
Qed.

Lemma similar_part (v w : value) s u u' : similar v w -> part v s = Some u -> part w s = Some u' -> similar u u'.
Proof. intros H E E' p x x' Hx Hx'. apply (H (s :: p)); cbn; [rewrite E|rewrite E']; auto. Qed.
Lemma similar_kind (v w : value) : similar v w -> kind_of v = kind_of w.
Proof. intros H. apply (H []); reflexivity. Qed.
Lemma leaf_part (v : value) s : is_leaf v -> part v s = None.
Proof. destruct v; cbn; intros H; auto; destruct H. Qed.
Lemma iters (rest : list value) : Forall (fun w => kind_of w = KSeq \/ exists fs, kind_of w = KNamed fs) rest ->
  exists its, mapM (iter rows) rest = Ok its /\ forall j us, Forall2 (fun l h => nth_error l j = Some h) its us <-> Forall2 (fun w u => part w (Idx j) = Some u) rest us.
Proof.
  induction 1 as [|w rest Hw _ (its & E & H)].
  - exists []. split; auto. intros j us. split; intros X; inversion X; constructor.
  - assert (exists l, iter rows w = Ok l /\ forall j, part w (Idx j) = nth_error l j) as (l & El & Hl).
    { destruct w; cbn in Hw; try (destruct Hw as [Hw|[? Hw]]; discriminate Hw); cbn; eauto. }
    exists (l :: its). split; [cbn; rewrite El; cbn; rewrite E; auto|].
    intros j us. split; intros X; inversion X; subst; constructor; try (rewrite Hl in *; auto); try (rewrite <- Hl; auto); apply H; auto.
Qed.
Lemma getitems k (rest : list value) us : Forall (fun w => kind_of w = KMap) rest ->
  (mapM (getitem k) rest = Ok us <-> Forall2 (fun w u => part w (Key k) = Some u) rest us).
Proof.
  intros H. rewrite mapM_ok_iff. revert us. induction H as [|w rest Hw _ IH]; intros us.
  - split; intros X; inversion X; constructor.
  - destruct w; cbn in Hw; try discriminate. split; intros X; inversion X as [|? ? ? ? E1 E2]; subst; constructor; try (apply IH; auto).
    + cbn in E1 |- *. rewrite assoc_find in E1. destruct (find_key k kvs); cbn in E1; [inversion E1; auto|discriminate].
    + cbn in E1 |- *. rewrite assoc_find, E1. reflexivity.
Qed.

Lemma leaf_bpart v rest r : is_leaf v -> coll v rest = Ok r -> forall s, bpart r s = None.
Proof.
  intros Hl E s. destruct v; cbn in Hl; try (destruct Hl); cbn in E;
    repeat match goal with H : bind _ _ = Ok _ |- _ => apply bind_ok in H as (? & ? & H); try (destruct x) end; unfold tensor_of in *;
    repeat match goal with H : (if ?b then _ else _) = Ok _ |- _ => destruct b | H : bind _ _ = Ok _ |- _ => apply bind_ok in H as (? & ? & H) end;
    try (inversion E; subst); auto; try discriminate; repeat match goal with p : _ * _ |- _ => destruct p end; try (inversion E; subst); auto.
Qed.

Lemma step_ok v rest r s : Forall (similar v) rest -> coll v rest = Ok r ->
  (forall b, bpart r s = Some b -> exists us, Forall2 (fun w u => part w s = Some u) (v :: rest) us /\ collater us = Ok b) /\
  (forall us, Forall2 (fun w u => part w s = Some u) (v :: rest) us -> exists b, bpart r s = Some b).
Proof.
  intros HS E.
  assert (HK : Forall (fun w => kind_of w = kind_of v) rest).
  { eapply Forall_impl; [|exact HS]. intros w H. symmetry. apply similar_kind; auto. }
  assert (HL : is_leaf v \/ (exists kvs, v = VMap kvs) \/ (exists vs, v = VSeq vs) \/ exists fs vs, v = VNamed fs vs).
  { destruct v; cbn; eauto 6. }
  destruct HL as [HL|[(kvs & ->)|[(vs & ->)|(fs & vs & ->)]]].
  - split.
    + intros b X. rewrite (leaf_bpart _ _ _ HL E) in X. discriminate.
    + intros us X. inversion X as [|? ? ? ? X1]; subst. rewrite (leaf_part _ s HL) in X1. discriminate.
  - cbn in E. apply bind_ok in E as (l & El & E). inversion E; subst r. destruct s as [k|j].
    + pose proof (map_find _ _ _ El k) as H. cbn [bpart]. split.
      * intros b X. destruct (find_key k kvs) as [v|] eqn:Ek; [|congruence]. destruct H as (us & b' & H1 & H2 & H3). rewrite H3 in X. inversion X; subst b'.
        exists (v :: us). split; [constructor; [cbn; auto|apply getitems; auto]|exact H2].
      * intros us X. inversion X as [|? ? ? ? X1]; subst. cbn in X1. rewrite X1 in H. destruct H as (us' & b' & _ & _ & H3). eauto.
    + split; [discriminate|]. intros us X. inversion X as [|? ? ? ? X1]; subst. discriminate X1.
  - cbn in E. apply bind_ok in E as (its & Ei & E). apply bind_ok in E as (l & El & E). inversion E; subst r.
    destruct (iters rest) as (its' & Ei' & Hi); [eapply Forall_impl; [|exact HK]; intros w Hw; left; auto|]. rewrite Ei in Ei'. inversion Ei'; subst its'.
    destruct s as [k|j].
    + split; [discriminate|]. intros us X. inversion X as [|? ? ? ? X1]; subst. discriminate X1.
    + destruct (zip_nth _ _ _ El j) as [Z1 Z2]. cbn [bpart]. split.
      * intros b X. destruct (Z1 b X) as (v & us & E1 & E2 & E3). exists (v :: us). split; [constructor; [auto|apply Hi; auto]|exact E3].
      * intros us X. inversion X as [|? u ? us' X1 X2]; subst. apply (Z2 u us'); [exact X1|apply Hi; auto].
  - cbn in E. apply bind_ok in E as (its & Ei & E). apply bind_ok in E as (l & El & E). destruct (_ =? _); [|discriminate]. inversion E; subst r.
    destruct (iters rest) as (its' & Ei' & Hi); [eapply Forall_impl; [|exact HK]; intros w Hw; right; exists fs; exact Hw|]. rewrite Ei in Ei'. inversion Ei'; subst its'.
    destruct s as [k|j].
    + split; [discriminate|]. intros us X. inversion X as [|? ? ? ? X1]; subst. discriminate X1.
    + destruct (zip_nth _ _ _ El j) as [Z1 Z2]. cbn [bpart]. split.
      * intros b X. destruct (Z1 b X) as (v & us & E1 & E2 & E3). exists (v :: us). split; [constructor; [auto|apply Hi; auto]|exact E3].
      * intros us X. inversion X as [|? u ? us' X1 X2]; subst. apply (Z2 u us'); [exact X1|apply Hi; auto].
Qed.

Lemma similar_parts (v : value) rest s us : Forall (similar v) rest -> Forall2 (fun w u => part w s = Some u) (v :: rest) us ->
  match us with u :: us' => Forall (similar u) us' | [] => False end.
Proof.
  intros HS X. inversion X as [|? u ? us' X1 X2]; subst. clear X. revert HS. induction X2 as [|w u' rest us' E X2 IH]; intros HS; constructor; inversion HS; subst.
  - eapply similar_part; eauto.
  - apply IH; auto.
Qed.
Lemma parts_cons (batch : list value) s p us vs : Forall2 (fun w u => part w s = Some u) batch us -> (parts_at us p vs <-> parts_at batch (s :: p) vs).
Proof.
  intros H. revert vs. induction H as [|w u batch us E H IH]; intros vs; unfold parts_at in *.
  - split; intros X; inversion X; constructor.
  - split; intros X; inversion X as [|? v ? vs' X1 X2]; subst; constructor; try (apply IH; auto); cbn in *; rewrite E in *; auto.
Qed.
Lemma parts_first (batch : list value) s p vs : parts_at batch (s :: p) vs -> exists us, Forall2 (fun w u => part w s = Some u) batch us.
Proof.
  unfold parts_at. induction 1 as [|w v batch vs E H (us & IH)]; [exists []; constructor|]. cbn in E. destruct (part w s) as [u|] eqn:Eu; [|discriminate].
  exists (u :: us). constructor; auto.
Qed.
Lemma parts_nil (batch : list value) : parts_at batch [] batch.
Proof. unfold parts_at. induction batch; constructor; auto. Qed.

Lemma places p : forall v rest r, Forall (similar v) rest -> coll v rest = Ok r ->
  (forall b, bpart_at r p = Some b -> exists vs, parts_at (v :: rest) p vs /\ collater vs = Ok b) /\
  (forall vs, parts_at (v :: rest) p vs -> exists b, bpart_at r p = Some b).
Proof.
  induction p as [|s p IH]; intros v rest r HS E.
  - split.
    + intros b X. inversion X; subst. exists (v :: rest). split; [apply parts_nil|exact E].
    + intros vs _. exists r. reflexivity.
  - destruct (step_ok v rest r s HS E) as [S1 S2]. cbn [bpart_at]. split.
    + intros b X. destruct (bpart r s) as [r'|] eqn:Er; [|discriminate]. destruct (S1 r' eq_refl) as (us & Hus & Ec).
      pose proof (similar_parts _ _ _ _ HS Hus) as HS'. destruct us as [|u us]; [destruct HS'|]. destruct (IH u us r' HS' Ec) as [I1 _].
      destruct (I1 b X) as (vs & Hvs & Ev). exists vs. split; auto. apply (parts_cons _ _ _ _ _ Hus). auto.
    + intros vs Hvs. destruct (parts_first _ _ _ _ Hvs) as (us & Hus). destruct (S2 us Hus) as (r' & Er). rewrite Er.
      destruct (S1 r' Er) as (us' & Hus' & Ec). assert (us' = us) as -> by (exact (Forall2_fun (fun w => part w s) _ _ _ Hus' Hus)).
      pose proof (similar_parts _ _ _ _ HS Hus) as HS'. destruct us as [|u us]; [destruct HS'|]. destruct (IH u us r' HS' Ec) as [_ I2].
      apply (I2 vs). apply (parts_cons _ _ _ _ _ Hus). auto.
Qed.

(** ** Success *)
Lemma alike_part (v w : value) s u : alike v w -> part v s = Some u -> exists u', part w s = Some u' /\ alike u u'.
Proof.
  intros H E. pose proof (H [s]) as H1. cbn in H1. rewrite E in H1. destruct (part w s) as [u'|] eqn:E'; [|discriminate].
  exists u'. split; auto. intros p. pose proof (H (s :: p)) as H2. cbn in H2. rewrite E, E' in H2. exact H2.
Qed.
Lemma alike_similar (v w : value) : alike v w -> similar v w.
Proof. intros H p u u' E E'. pose proof (H p) as X. rewrite E, E' in X. inversion X; auto. Qed.
Lemma alike_parts (v : value) rest s u : Forall (alike v) rest -> part v s = Some u ->
  exists us, Forall2 (fun w u => part w s = Some u) rest us /\ Forall (alike u) us.
Proof.
  intros H E. induction H as [|w rest Hw _ (us & H1 & H2)]; [exists []; split; constructor|].
  destruct (alike_part _ _ _ _ Hw E) as (u' & E' & A). exists (u' :: us). split; constructor; auto.
Qed.
Lemma proper_part (v : value) s u : proper v -> part v s = Some u -> proper u.
Proof. intros H E p x Hx. apply (H (s :: p)). cbn. rewrite E. auto. Qed.

Definition leaves_ok (batch : list value) : Prop :=
  forall p v vs, parts_at batch p (v :: vs) -> is_leaf v -> exists r, collater (v :: vs) = Ok r.
Lemma leaves_part v rest s u us : leaves_ok (v :: rest) -> part v s = Some u -> Forall2 (fun w u => part w s = Some u) rest us -> leaves_ok (u :: us).
Proof. intros H E E' p x xs Hx Hl. apply (H (s :: p) x xs); auto. apply (parts_cons (v :: rest) s p (u :: us)); auto. Qed.

Lemma zip_ok (f : value -> list value -> result batched) vs : forall ls,
  (forall j v us, nth_error vs j = Some v -> Forall2 (fun l h => nth_error l j = Some h) ls us -> exists b, f v us = Ok b) ->
  Forall (fun l => length l = length vs) ls ->
  exists bs, zip_with f vs ls = Ok bs /\ length bs = length vs.
Proof.
  induction vs as [|v vs IH]; intros ls H HL; [exists []; auto|]. cbn.
  assert (exists hs ts, heads ls = Some (hs, ts) /\ Forall (fun l => length l = length vs) ts) as (hs & ts & Eh & HL').
  { clear H IH. induction HL as [|l ls Hl _ (hs & ts & E & H)]; [exists [], []; split; auto|]. destruct l as [|a l]; [discriminate|].
    exists (a :: hs), (l :: ts). cbn. rewrite E. split; auto. }
  rewrite Eh. destruct (heads_nth _ _ _ Eh) as [H0 HS]. destruct (H 0 v hs eq_refl H0) as (b & Eb). rewrite Eb. cbn [bind].
  destruct (IH ts) as (bs & Ebs & L); auto.
  - intros j u us Hu Hus. apply (H (S j) u us); auto. apply HS; auto.
  - rewrite Ebs. cbn. exists (b :: bs). cbn. auto.
Qed.
Lemma map_ok rest kvs : (forall k v, In (k, v) kvs -> exists us b, mapM (getitem k) rest = Ok us /\ coll v us = Ok b) ->
  exists l, map_with coll rest kvs = Ok l.
Proof.
  induction kvs as [|[k v] kvs IH]; intros H; [exists []; auto|]. destruct (H k v) as (us & b & E1 & E2); [left; auto|].
  destruct IH as (l & El); [intros; apply H; right; auto|]. cbn. rewrite E1. cbn. rewrite E2. cbn. rewrite El. cbn. eauto.
Qed.
Lemma find_in {A} k (a : A) l : NoDup (map fst l) -> In (k, a) l -> find_key k l = Some a.
Proof.
  induction l as [|[k' a'] l IH]; cbn; intros HN Hi; [destruct Hi|]. inversion HN; subst. destruct (string_dec k k') as [->|N].
  - destruct Hi as [E|Hi]; [inversion E; auto|]. exfalso. apply H1. apply (in_map fst) in Hi. exact Hi.
  - destruct Hi as [E|Hi]; [inversion E; congruence|auto].
Qed.
Lemma seq_lengths (v : value) vs (Hv : v = VSeq vs \/ exists fs, v = VNamed fs vs) rest its : Forall (alike v) rest ->
  (forall j us, Forall2 (fun l h => nth_error l j = Some h) its us <-> Forall2 (fun w u => part w (Idx j) = Some u) rest us) ->
  mapM (iter rows) rest = Ok its -> Forall (fun l => length l = length vs) its.
Proof.
  intros HA _ E. apply mapM_ok_iff in E. revert HA. induction E as [|w l rest its Ew E IH]; intros HA; constructor; inversion HA as [|? ? A1 A2]; subst; auto.
  assert (Hp : forall j, part w (Idx j) = nth_error l j).
  { pose proof (similar_kind _ _ (alike_similar _ _ A1)) as K. destruct Hv as [->|(fs & ->)]; destruct w; try discriminate K; cbn in Ew; inversion Ew; subst; reflexivity. }
  assert (Hq : forall j, part v (Idx j) = nth_error vs j) by (intros j; destruct Hv as [->|(fs & ->)]; reflexivity).
  assert (Hd : forall j, nth_error vs j = None <-> nth_error l j = None).
  { intros j. rewrite <- Hp, <- Hq. pose proof (A1 [Idx j]) as X. cbn in X. destruct (part v (Idx j)), (part w (Idx j)); try discriminate X; split; intros; congruence. }
  destruct (Nat.lt_trichotomy (length l) (length vs)) as [L|[L|L]]; auto; exfalso.
  - assert (nth_error l (length l) = None) by (apply nth_error_None; lia). apply Hd, nth_error_None in H. lia.
  - assert (nth_error vs (length vs) = None) by (apply nth_error_None; lia). apply Hd, nth_error_None in H. lia.
Qed.

Lemma succeeds : forall v rest, proper v -> Forall (alike v) rest -> leaves_ok (v :: rest) -> exists r, coll v rest = Ok r.
Proof.
  induction v as [v Hl|kvs IH|fs vs IH|vs IH] using value_deep; intros rest HP HA HL.
  - destruct (HL [] v rest) as (r & E); [apply parts_nil|auto|]. exists r. exact E.
  - assert (HK : Forall (fun w => kind_of w = KMap) rest).
    { eapply Forall_impl; [|exact HA]. intros w H. symmetry. apply (similar_kind (VMap kvs) w), alike_similar; auto. }
    pose proof (HP [] _ eq_refl) as HN. cbn in HN.
    destruct (map_ok rest kvs) as (l & E); [|exists (BMap l); cbn; rewrite E; reflexivity].
    intros k u Hi. assert (Hu : part (VMap kvs) (Key k) = Some u) by (cbn; apply find_in; auto).
    destruct (alike_parts _ _ _ _ HA Hu) as (us & H1 & H2). rewrite Forall_forall in IH.
    destruct (IH (k, u) Hi us) as (b & Eb); cbn [snd]; auto.
    + eapply proper_part; eauto.
    + eapply leaves_part; eauto.
    + exists us, b. split; auto. apply getitems; auto.
  - destruct (iters rest) as (its & Ei & Hi).
    { eapply Forall_impl; [|exact HA]. intros w H. right. exists fs. symmetry. apply (similar_kind (VNamed fs vs) w), alike_similar; auto. }
    pose proof (HP [] _ eq_refl) as HN. cbn in HN.
    destruct (zip_ok coll vs its) as (bs & Eb & Lb).
    + intros j u us Hu Hus. apply Hi in Hus. assert (Hu' : part (VNamed fs vs) (Idx j) = Some u) by auto.
      destruct (alike_parts _ _ _ _ HA Hu') as (us' & H1 & H2). assert (us' = us) as -> by (exact (Forall2_fun (fun w => part w (Idx j)) _ _ _ H1 Hus)).
      rewrite Forall_forall in IH. apply (IH u (nth_error_In _ _ Hu)); auto; [eapply proper_part; eauto|eapply leaves_part; eauto].
    + eapply (seq_lengths (VNamed fs vs)); eauto.
    + exists (BNamed fs bs). cbn. rewrite Ei. cbn. rewrite Eb. cbn. rewrite Lb, HN, Nat.eqb_refl. reflexivity.
  - destruct (iters rest) as (its & Ei & Hi).
    { eapply Forall_impl; [|exact HA]. intros w H. left. symmetry. apply (similar_kind (VSeq vs) w), alike_similar; auto. }
    destruct (zip_ok coll vs its) as (bs & Eb & Lb).
    + intros j u us Hu Hus. apply Hi in Hus. assert (Hu' : part (VSeq vs) (Idx j) = Some u) by auto.
      destruct (alike_parts _ _ _ _ HA Hu') as (us' & H1 & H2). assert (us' = us) as -> by (exact (Forall2_fun (fun w => part w (Idx j)) _ _ _ H1 Hus)).
      rewrite Forall_forall in IH. apply (IH u (nth_error_In _ _ Hu)); auto; [eapply proper_part; eauto|eapply leaves_part; eauto].
    + eapply (seq_lengths (VSeq vs)); eauto.
    + exists (BSeq bs). cbn. rewrite Ei. cbn. rewrite Eb. reflexivity.
Qed.
End Proofs.
