(** C76: batches of samples of any kind, and the assignment vectors of followed keys. *)
From Coq Require Import String List Arith Bool ZArith Ascii Lia Permutation.
From Verif Require Import Base ScatterModel ComplexModel BatchSpec BatchSpec2 BatchProofs BatchProps MPModel MPSpec MPProofs MPForward MPProps DummyModel.
From Verif Require Import CollaterModel CollaterSpec CollaterProofs.
Import ListNotations.
Open Scope nat_scope.

Lemma F2l {A B} (R : A -> B -> Prop) l l' i a : Forall2 R l l' -> nth_error l i = Some a -> exists b, nth_error l' i = Some b /\ R a b.
Proof. intros H. revert i. induction H; intros [|i] E; try discriminate; cbn in *; [inversion E; subst; eauto|auto]. Qed.
Lemma F2r {A B} (R : A -> B -> Prop) l l' i b : Forall2 R l l' -> nth_error l' i = Some b -> exists a, nth_error l i = Some a /\ R a b.
Proof. intros H. revert i. induction H; intros [|i] E; try discriminate; cbn in *; [inversion E; subst; eauto|auto]. Qed.

(** ** Followed keys *)
Section Follow.
Context {V : Type}.
Notation cochain := (cochain V).
Notation complex := (complex V).

Lemma names_size key {A} (get : cochain -> option (list A)) c : names key get -> attr_size c key = option_map (@List.length A) (get c).
Proof. intros H. destruct H; reflexivity. Qed.
Lemma names_in key {A} (get : cochain -> option (list A)) : names key get -> In key attr_names.
Proof. intros H. unfold attr_names. destruct H; cbn; tauto. Qed.
Lemma in_names key : In key attr_names -> exists A (get : cochain -> option (list A)), names key get.
Proof.
  unfold attr_names. cbn. intros H. repeat destruct H as [<-|H]; try (do 2 eexists; constructor). destruct H.
Qed.

Lemma follow_some key data : forall i l, i <> 0 -> exists l', follow_loop key i (Some l) data = Ok (Some l') /\
  concat l' = concat l ++ owners i (map (fun c : cochain => or0 (attr_size c key)) data).
Proof.
  induction data as [|c data IH]; intros i l Hi; cbn [follow_loop map owners].
  - exists l. rewrite app_nil_r. auto.
  - destruct (attr_size c key) as [n|].
    + rewrite (proj2 (Nat.eqb_neq _ _) Hi). destruct (IH (S i) (l ++ [repeat i n])) as (l' & E & H); [lia|]. exists l'. split; auto.
      rewrite H, concat_app. cbn. rewrite app_nil_r, <- app_assoc. reflexivity.
    + destruct (IH (S i) l) as (l' & E & H); [lia|]. exists l'. auto.
Qed.
Lemma follow_none key data : forall i, i <> 0 ->
  (Forall (fun c : cochain => attr_size c key = None) data /\ follow_loop key i None data = Ok None) \/
  (~ Forall (fun c : cochain => attr_size c key = None) data /\ follow_loop key i None data = Err AttributeError).
Proof.
  induction data as [|c data IH]; intros i Hi; cbn [follow_loop]; [left; auto|]. destruct (attr_size c key) as [n|] eqn:E.
  - rewrite (proj2 (Nat.eqb_neq _ _) Hi). right. split; auto. intros H. inversion H; congruence.
  - destruct (IH (S i)) as [[H1 H2]|[H1 H2]]; [lia|left|right]; split; auto. intros H. inversion H; auto.
Qed.
Definition first_or_none key (data : list cochain) : Prop :=
  Forall (fun c => attr_size c key = None) data \/ match data with [] => True | c :: _ => attr_size c key <> None end.
Lemma follow_all key data :
  (first_or_none key data /\ exists v, follow_loop key 0 None data = Ok v /\
     (v = None <-> Forall (fun c => attr_size c key = None) data) /\
     (forall l, v = Some l -> concat l = owners 0 (map (fun c : cochain => or0 (attr_size c key)) data))) \/
  (~ first_or_none key data /\ follow_loop key 0 None data = Err AttributeError).
Proof.
  destruct data as [|c data]; cbn [follow_loop].
  - left. split; [left; auto|]. exists None. split; auto. split; [split; auto|]. discriminate.
  - destruct (attr_size c key) as [n|] eqn:E.
    + left. split; [right; congruence|]. cbn [Nat.eqb]. destruct (follow_some key data 1 ([] ++ [repeat 0 n])) as (l' & E' & H); [lia|].
      exists (Some l'). split; auto. split; [split; [discriminate|intros X; inversion X; congruence]|]. intros l X. inversion X; subst l'.
      rewrite H. cbn. rewrite E, app_nil_r. reflexivity.
    + destruct (follow_none key data 1) as [[H1 H2]|[H1 H2]]; [lia|left|right].
      * split; [left; constructor; auto|]. exists None. split; auto. split; [split; auto|]. discriminate.
      * split; auto. intros [X|X]; [inversion X; auto|congruence].
Qed.

Lemma mapM_cases {A B} (f : A -> result B) e l : (forall a, In a l -> (exists b, f a = Ok b) \/ f a = Err e) ->
  (exists bs, mapM f l = Ok bs) \/ (mapM f l = Err e /\ exists a, In a l /\ f a = Err e).
Proof.
  induction l as [|a l IH]; intros H; [left; exists []; auto|]. destruct (H a) as [(b & Eb)|Eb]; [left; auto| |].
  - cbn. rewrite Eb. cbn. destruct IH as [(bs & E)|(E & a' & Ha & E')]; [intros; apply H; right; auto| |].
    + rewrite E. cbn. left. eauto.
    + rewrite E. cbn. right. split; auto. exists a'. auto.
  - right. cbn. rewrite Eb. split; auto. exists a. auto.
Qed.

Lemma cochain_list_f follow (data : list cochain) b : from_cochain_list data = Ok b ->
  ((forall key, In key attr_names -> In key follow -> first_or_none key data) /\
   exists vs, from_cochain_list_f follow data = Ok (b, vs) /\
     forall name v, In (name, v) vs <-> exists key, In key attr_names /\ In key follow /\ name = (key ++ "_batch")%string /\
       ~ Forall (fun c => attr_size c key = None) data /\ v = owners 0 (map (fun c => or0 (attr_size c key)) data)) \/
  (~ (forall key, In key attr_names -> In key follow -> first_or_none key data) /\ from_cochain_list_f follow data = Err AttributeError).
Proof.
  intros Hb. unfold from_cochain_list_f. rewrite Hb. cbn [bind].
  set (ks := filter _ _). assert (Hks : forall key, In key ks <-> In key attr_names /\ In key follow).
  { intros key. unfold ks. rewrite filter_In. split; intros [H1 H2]; split; auto.
    - apply existsb_exists in H2 as (k & Hk & E). apply String.eqb_eq in E. subst; auto.
    - apply existsb_exists. exists key. split; auto. apply String.eqb_refl. }
  destruct (mapM_cases (fun key => let* v := follow_loop key 0 None data in
     Ok (match v with Some l => [((key ++ "_batch")%string, concat l)] | None => [] end)) AttributeError ks) as [(vs & E)|(E & key & Hk & E')].
  - intros key _. destruct (follow_all key data) as [(_ & v & E & _)|(_ & E)]; rewrite E; cbn; eauto.
  - left. rewrite E. apply mapM_ok_iff in E. split.
    + intros key H1 H2. assert (Hi : In key ks) by (apply Hks; auto). apply In_nth_error in Hi as (j & Hj).
      destruct (F2l _ _ _ _ _ E Hj) as (x & _ & Ex). destruct (follow_all key data) as [(H & _)|(_ & X)]; auto. cbn beta in Ex. rewrite X in Ex. discriminate Ex.
    + exists (concat vs). split; auto. intros name v. rewrite in_concat. split.
      * intros (x & Hx & Hi). apply In_nth_error in Hx as (j & Hj). destruct (F2r _ _ _ _ _ E Hj) as (key & Hk & Ex). cbn beta in Ex.
        destruct (follow_all key data) as [(_ & u & Eu & Hn & Hs)|(_ & X)]; [|rewrite X in Ex; discriminate Ex]. rewrite Eu in Ex. cbn in Ex. inversion Ex; subst x.
        destruct u as [l|]; [|destruct Hi]. destruct Hi as [Hi|[]]. inversion Hi; subst. exists key.
        apply nth_error_In, Hks in Hk as [H1 H2]. split; auto. split; auto. split; auto. split; [|apply Hs; auto]. intros X. apply Hn in X. discriminate.
      * intros (key & H1 & H2 & -> & H3 & ->). assert (Hi : In key ks) by (apply Hks; auto). apply In_nth_error in Hi as (j & Hj).
        destruct (F2l _ _ _ _ _ E Hj) as (x & Hx & Ex). cbn beta in Ex. exists x. split; [eapply nth_error_In; eauto|].
        destruct (follow_all key data) as [(_ & u & Eu & Hn & Hs)|(_ & X)]; [|rewrite X in Ex; discriminate Ex]. rewrite Eu in Ex. cbn in Ex. inversion Ex; subst x.
        destruct u as [l|]; [|exfalso; apply H3, Hn; auto]. left. rewrite (Hs l eq_refl). reflexivity.
  - right. rewrite E. split; auto. intros H. apply Hks in Hk as [H1 H2]. destruct (follow_all key data) as [(_ & u & Eu & _)|(X & _)]; [|apply X; auto].
    rewrite Eu in E'. discriminate E'.
Qed.

Lemma member_size (k : complex) d c key {A} (get : cochain -> option (list A)) : names key get -> member_cochain k d = Ok c ->
  attr_size c key = option_map (@List.length A) (attr get d k).
Proof.
  intros Hn E. rewrite (names_size key get c Hn). f_equal. unfold member_cochain in E. unfold attr.
  destruct (nth_error (k_cochains k) d) as [c'|]; [inversion E; auto|]. destruct d as [|d'].
  - inversion E. destruct Hn; reflexivity.
  - destruct (nth_error (k_cochains k) d'); [apply bind_ok in E as (n & _ & E)|]; inversion E; destruct Hn; reflexivity.
Qed.

(** In dimension [d] the first complex has the attribute, or none has. *)
Definition led {A} (get : cochain -> option (list A)) (ks : list complex) (d : nat) : Prop :=
  (forall k, In k ks -> attr get d k = None) \/ (forall k, nth_error ks 0 = Some k -> attr get d k <> None).

Lemma dims_list ks max_dim b : from_complex_list ks max_dim = Ok b -> forall d, d <= dims ks max_dim ->
  exists cs b', mapM (fun k : complex => member_cochain k d) ks = Ok cs /\ from_cochain_list cs = Ok b'.
Proof.
  intros Hb d Hd. unfold from_complex_list in Hb. destruct ks as [|k0 ks0]; [discriminate|]. set (ks := k0 :: ks0) in *.
  apply bind_ok in Hb as (bs & Hbs & _). apply mapM_ok_iff in Hbs.
  assert (Hsq : nth_error (seq 0 (dims ks max_dim + 1)) d = Some d) by (rewrite (nth_error_nth' _ 0) by (rewrite seq_length; lia); rewrite seq_nth by lia; auto).
  destruct (F2l _ _ _ _ _ Hbs Hsq) as (b' & _ & E). apply bind_ok in E as (cs & E1 & E2). eauto.
Qed.
Lemma sizes_of ks d cs key {A} (get : cochain -> option (list A)) : names key get -> mapM (fun k : complex => member_cochain k d) ks = Ok cs ->
  map (fun c => attr_size c key) cs = map (fun k => option_map (@List.length A) (attr get d k)) ks.
Proof.
  intros Hn E. apply mapM_ok_iff in E. induction E as [|k c ks cs E1 E IH]; cbn; auto. rewrite IH. f_equal. apply member_size; auto.
Qed.
Lemma led_iff ks d cs key {A} (get : cochain -> option (list A)) : names key get -> mapM (fun k : complex => member_cochain k d) ks = Ok cs ->
  ((Forall (fun c => attr_size c key = None) cs <-> forall k, In k ks -> attr get d k = None) /\ (first_or_none key cs <-> led get ks d)).
Proof.
  intros Hn E. pose proof (sizes_of ks d cs key get Hn E) as S.
  assert (H1 : Forall (fun c => attr_size c key = None) cs <-> forall k, In k ks -> attr get d k = None).
  { rewrite <- (Forall_forall (fun k => attr get d k = None)). clear E. revert cs S. induction ks as [|k ks IH]; intros [|c cs] S; cbn in S; try discriminate.
    - split; constructor.
    - inversion S as [[S1 S2]]. specialize (IH cs S2). split; intros H; inversion H; subst; constructor; try (apply IH; auto).
      + rewrite S1 in *. destruct (attr get d k); [discriminate|auto].
      + rewrite S1. match goal with X : attr get d k = None |- _ => rewrite X end. reflexivity. }
  split; auto. unfold first_or_none, led. rewrite H1. destruct ks as [|k ks], cs as [|c cs]; cbn in S; try discriminate.
  - split; auto. intros _. left. intros k [].
  - inversion S as [[S1 S2]]. rewrite S1. cbn. split; intros [H|H]; auto; right.
    + intros k' X. inversion X; subst k'. destruct (attr get d k); [discriminate|]. cbn in H. congruence.
    + intros X. apply (H k eq_refl). destruct (attr get d k); [discriminate|auto].
Qed.

(** C76: with followed keys batching gives the same batch, provided that in every dimension the first complex has the followed
    attributes that any of them has; otherwise it raises AttributeError.  The vector [key_batch] then tells which member every
    entry of the attribute comes from. *)
Theorem C76_follow follow (ks : list complex) max_dim b : from_complex_list ks max_dim = Ok b ->
  ((forall d key A (get : cochain -> option (list A)), d <= dims ks max_dim -> names key get -> In key follow -> led get ks d) /\
   exists vs, from_complex_list_f follow ks max_dim = Ok (b, vs) /\ length vs = dims ks max_dim + 1 /\
     forall d, d <= dims ks max_dim -> forall name v, In (name, v) (nth d vs []) <->
       exists key A (get : cochain -> option (list A)), names key get /\ In key follow /\ name = (key ++ "_batch")%string /\
         (exists k, In k ks /\ attr get d k <> None) /\ v = owners 0 (map (fun k => length (content (attr get d k))) ks)) \/
  (~ (forall d key A (get : cochain -> option (list A)), d <= dims ks max_dim -> names key get -> In key follow -> led get ks d) /\
   from_complex_list_f follow ks max_dim = Err AttributeError).
Proof.
  intros Hb. unfold from_complex_list_f. rewrite Hb. cbn [bind]. fold (dims ks max_dim).
  set (f := fun d => let* cs := mapM (fun k => member_cochain k d) ks in let* p := from_cochain_list_f follow cs in Ok (snd p)).
  assert (Hd : forall d, d <= dims ks max_dim -> exists cs b', mapM (fun k : complex => member_cochain k d) ks = Ok cs /\ from_cochain_list cs = Ok b' /\
     (((forall key A (get : cochain -> option (list A)), names key get -> In key follow -> led get ks d) /\ exists vs, f d = Ok vs /\
        forall name v, In (name, v) vs <-> exists key, In key attr_names /\ In key follow /\ name = (key ++ "_batch")%string /\
          ~ Forall (fun c => attr_size c key = None) cs /\ v = owners 0 (map (fun c => or0 (attr_size c key)) cs)) \/
      (~ (forall key A (get : cochain -> option (list A)), names key get -> In key follow -> led get ks d) /\ f d = Err AttributeError))).
  { intros d Hd. destruct (dims_list _ _ _ Hb d Hd) as (cs & b' & E1 & E2). exists cs, b'. split; auto. split; auto. unfold f. rewrite E1. cbn [bind].
    destruct (cochain_list_f follow cs b' E2) as [(H1 & vs & E3 & H2)|(H1 & E3)]; rewrite E3; cbn [bind snd]; [left|right].
    - split; eauto. intros key A get Hn Hf. apply (led_iff ks d cs key get Hn E1). apply H1; auto. eapply names_in; eauto.
    - split; auto. intros H. apply H1. intros key Hk Hf. destruct (in_names key Hk) as (A & get & Hn). apply (led_iff ks d cs key get Hn E1). eauto. }
  destruct (mapM_cases f AttributeError (seq 0 (dims ks max_dim + 1))) as [(vs & E)|(E & d & Hi & E')].
  { intros d Hi. apply in_seq in Hi. destruct (Hd d) as (cs & b' & _ & _ & [(_ & v & Ev & _)|(_ & Ev)]); [lia|left; eauto|right; auto]. }
  - left. rewrite E. apply mapM_ok_iff in E.
    assert (HE : forall d, d <= dims ks max_dim -> f d = Ok (nth d vs [])).
    { intros d Hdd. assert (Hsq : nth_error (seq 0 (dims ks max_dim + 1)) d = Some d) by (rewrite (nth_error_nth' _ 0) by (rewrite seq_length; lia); rewrite seq_nth by lia; auto).
      destruct (F2l _ _ _ _ _ E Hsq) as (x & Hx & Ex). rewrite Ex. f_equal. symmetry. apply nth_error_nth; auto. }
    split.
    + intros d key A get Hdd Hn Hf. destruct (Hd d Hdd) as (cs & b' & _ & _ & [(H & _)|(_ & Ev)]); [eauto|rewrite (HE d Hdd) in Ev; discriminate].
    + exists vs. split; auto. split; [rewrite <- (Forall2_length E), seq_length; auto|].
      intros d Hdd name v. destruct (Hd d Hdd) as (cs & b' & E1 & _ & [(_ & v' & Ev & H)|(_ & Ev)]); rewrite (HE d Hdd) in Ev; [|discriminate]. inversion Ev; subst v'.
      rewrite H. split.
      * intros (key & H1 & H2 & -> & H3 & ->). destruct (in_names key H1) as (A & get & Hn). exists key, A, get. split; auto. split; auto. split; auto.
        destruct (led_iff ks d cs key get Hn E1) as [L _]. split.
        -- rewrite L in H3. clear - H3. induction ks as [|k ks IH]; [exfalso; apply H3; intros k []|].
           destruct (attr get d k) eqn:Ea; [exists k; split; [left; auto|congruence]|].
           destruct IH as (k' & Hk & X); [|exists k'; split; [right; auto|auto]]. intros H. apply H3. intros k' [<-|Hk]; auto.
        -- f_equal. rewrite <- (map_map (fun c => attr_size c key) or0), (sizes_of ks d cs key get Hn E1), map_map. apply map_ext. intros k. destruct (attr get d k); reflexivity.
      * intros (key & A & get & Hn & H2 & -> & (k & Hk & H3) & ->). exists key. split; [eapply names_in; eauto|]. split; auto. split; auto.
        destruct (led_iff ks d cs key get Hn E1) as [L _]. split.
        -- rewrite L. intros X. apply H3, X; auto.
        -- f_equal. rewrite <- (map_map (fun c => attr_size c key) or0), (sizes_of ks d cs key get Hn E1), map_map. apply map_ext. intros k'. destruct (attr get d k'); reflexivity.
  - right. rewrite E. split; auto. apply in_seq in Hi. intros H. destruct (Hd d) as (cs & b' & _ & _ & [(_ & v & Ev & _)|(X & _)]); [lia|congruence|].
    apply X. intros key A get Hn Hf. apply (H d key A get); auto. lia.
Qed.

(** Features are not followed under their name: there is no [x_batch]. *)
Theorem C76_follow_x_ignored (ks : list complex) max_dim b vs : from_complex_list_f ["x"%string] ks max_dim = Ok (b, vs) -> Forall (fun l => l = []) vs.
Proof.
  unfold from_complex_list_f. intros E. apply bind_ok in E as (b' & _ & E). apply bind_ok in E as (vs' & E1 & E). inversion E; subst. apply mapM_ok_iff in E1.
  clear E. induction E1 as [|d v ds vs E1 _ IH]; constructor; auto. apply bind_ok in E1 as (cs & _ & E1). apply bind_ok in E1 as (p & E2 & E1). inversion E1; subst.
  unfold from_cochain_list_f in E2. apply bind_ok in E2 as (b2 & _ & E2). cbn in E2. inversion E2. reflexivity.
Qed.
(** Under their mangled name the vector is the assignment vector of the batch. *)
Theorem C76_follow_features (ks : list complex) szs max_dim follow b vs d v :
  ks <> [] -> Forall2 wf_complex ks szs -> Forall (has_features (dims ks max_dim)) ks ->
  from_complex_list_f follow ks max_dim = Ok (b, vs) -> d <= dims ks max_dim -> In ("_Cochain__x_batch"%string, v) (nth d vs []) ->
  nth_error (kb_batch b) d = Some (Some v).
Proof.
  intros Hne HW HF E Hd Hi. assert (E0 : from_complex_list ks max_dim = Ok b).
  { unfold from_complex_list_f in E. apply bind_ok in E as (b' & E0 & E). apply bind_ok in E as (vs' & _ & E). inversion E; subst; auto. }
  assert (HU : uniform_x ks (dims ks max_dim)).
  { intros d' Hd'. left. intros k c Hk Hc. rewrite Forall_forall in HF. apply (HF k Hk d'); auto. }
  destruct (batch_parts ks szs max_dim b d Hne HW HU E0 Hd) as (C & _ & _ & _ & HB & _). rewrite HB. do 2 f_equal.
  destruct (C76_follow follow ks max_dim b E0) as [(_ & vs' & E' & _ & H)|(_ & E')]; rewrite E in E'; [|discriminate]. inversion E'; subst vs'.
  apply (H d Hd) in Hi as (key & A & get & Hn & _ & Ek & _ & ->).
  assert (Hx : map (fun k => length (content (attr get d k))) ks = map (fun sz => sz d) szs).
  { assert (Hm : forall k, length (content (attr get d k)) = length (content (attr c_x d k))) by (intros k; destruct Hn; cbn in Ek; try discriminate Ek; reflexivity).
    clear - HW HF Hm Hd. revert HF. set (DD := dims ks max_dim) in *. clearbody DD. induction HW as [|k sz ks szs W HW IH]; intros HF; cbn; auto. inversion HF as [|? ? F1 F2]; subst.
    rewrite IH by auto. f_equal. rewrite Hm. unfold attr. destruct (nth_error (k_cochains k) d) as [c|] eqn:Ec.
    - pose proof (wf_x _ _ _ _ (wfk_each _ _ W _ _ Ec)) as X. pose proof (F1 d c Hd Ec) as Y. destruct (c_x c); [exact X|congruence].
    - apply nth_error_None in Ec. rewrite (wfk_len _ _ W) in Ec. cbn. symmetry. apply (wfk_above _ _ W). lia. }
  rewrite Hx. unfold membership, mapi. generalize 0. clear. induction szs as [|sz szs IH]; intros i; cbn; auto. rewrite IH. reflexivity.
Qed.
End Follow.

(** ** Samples of any kind *)
Section Samples.
Context {V D DB T F F32 : Type}.
Variable batch_graphs : list D -> result DB.
Variable stack : list T -> result T.
Variable rows : T -> result (list T).
Variable to32 : F -> F32.
Variable of_int : Z -> F32.
Variable follow : list string.
Variable max_dim : nat.
Notation value := (value V D T F).
Notation batched := (batched V D DB T F F32).
Notation collater := (@collater V D DB T F F32 batch_graphs stack rows to32 of_int follow max_dim).

(** C76: a batch has exactly the places that all its samples have, and has there the batch of what the samples have there. *)
Theorem C76_places (elem : value) rest r p :
  Forall (similar elem) rest -> collater (elem :: rest) = Ok r ->
  (forall b, bpart_at r p = Some b -> exists vs, parts_at (elem :: rest) p vs /\ collater vs = Ok b) /\
  (forall vs, parts_at (elem :: rest) p vs -> exists b, bpart_at r p = Some b /\ collater vs = Ok b).
Proof.
  intros HS E. destruct (places batch_graphs stack rows to32 of_int follow max_dim p elem rest r HS E) as [H1 H2]. split; auto.
  intros vs Hvs. destruct (H2 vs Hvs) as (b & Eb). exists b. split; auto. destruct (H1 b Eb) as (vs' & Hvs' & Ec).
  replace vs with vs'; auto. exact (Forall2_fun (fun w => part_at w p) _ _ _ Hvs' Hvs).
Qed.

(** C76: samples of the same form can be batched if (and only if) the leaves can; then no place of theirs is lost. *)
Theorem C76_alike (elem : value) rest :
  proper elem -> Forall (alike elem) rest ->
  ((exists r, collater (elem :: rest) = Ok r) <->
   (forall p v vs, parts_at (elem :: rest) p (v :: vs) -> is_leaf v -> exists b, collater (v :: vs) = Ok b)) /\
  (forall r, collater (elem :: rest) = Ok r -> forall p,
     (exists b, bpart_at r p = Some b) <-> (exists v, part_at elem p = Some v)).
Proof.
  intros HP HA. assert (HS : Forall (similar elem) rest) by (eapply Forall_impl; [|exact HA]; intros w; apply alike_similar). split.
  - split.
    + intros (r & E) p v vs Hvs _. destruct (proj2 (C76_places elem rest r p HS E) _ Hvs) as (b & _ & Eb). eauto.
    + intros H. apply (succeeds batch_graphs stack rows to32 of_int follow max_dim elem rest HP HA H).
  - intros r E p. destruct (C76_places elem rest r p HS E) as [H1 H2]. split.
    + intros (b & Eb). destruct (H1 b Eb) as (vs & Hvs & _). inversion Hvs; subst; eauto.
    + intros (v & Ev). assert (exists vs, parts_at (elem :: rest) p vs) as (vs & Hvs).
      { clear - HA Ev. assert (exists vs, parts_at rest p vs) as (vs & H); [|exists (v :: vs); constructor; auto].
        induction HA as [|w rest Hw _ (vs & IH)]; [exists []; constructor|]. pose proof (Hw p) as X. rewrite Ev in X. destruct (part_at w p) as [u|] eqn:Eu; [|discriminate].
        exists (u :: vs). constructor; auto. }
      destruct (H2 vs Hvs) as (b & Eb & _). eauto.
Qed.

(** C76: numbers.  Whichever number comes first, the batch has the numbers in the widest of their types. *)
Definition number (v : value) : Prop := match v with VFloat _ | VInt _ | VBool _ => True | _ => False end.
Definition real (v : value) : option F32 :=
  match v with VFloat x => Some (to32 x) | VInt z => Some (of_int z) | VBool b => Some (of_int (if b then 1 else 0)) | _ => None end.
Lemma mapM_float batch : Forall number batch -> exists xs, mapM (as_float to32 of_int) batch = Ok xs /\ map Some xs = map real batch.
Proof.
  induction 1 as [|v batch Hv _ (xs & E & H)]; [exists []; auto|]. destruct v; destruct Hv; cbn; rewrite E; cbn; eexists; split; try reflexivity; cbn; rewrite H; reflexivity.
Qed.
Theorem C76_numbers batch : batch <> [] -> Forall number batch ->
  ((exists x, In (VFloat x) batch) -> exists xs, collater batch = Ok (BFloats xs) /\ map Some xs = map real batch) /\
  (forall zs, batch = map VInt zs -> collater batch = Ok (BInts zs)) /\
  (forall bs, batch = map VBool bs -> collater batch = Ok (BBools bs)).
Proof.
  intros Hne HN. destruct batch as [|v batch]; [congruence|]. clear Hne. split; [|split].
  - intros (x & Hx). destruct (mapM_float _ HN) as (xs & E & H). exists xs. split; auto. cbn [CollaterModel.collater].
    assert (HE : existsb is_float (v :: batch) = true) by (apply existsb_exists; exists (VFloat x); split; auto).
    inversion HN as [|? ? Hv _]; subst. destruct v; destruct Hv; cbn [CollaterModel.coll]; unfold tensor_of; try rewrite HE; rewrite E; reflexivity.
  - intros zs E. destruct zs as [|z zs]; [discriminate|]. inversion E; subst. cbn. unfold tensor_of. cbn [existsb forallb is_float is_bool orb andb].
    assert (existsb is_float (map (@VInt V D T F) zs) = false) as -> .
    { clear. induction zs; cbn; auto. }
    cbn. assert (mapM as_int (map (@VInt V D T F) zs) = Ok zs) as ->; [|reflexivity]. clear. induction zs; cbn; auto. rewrite IHzs. reflexivity.
  - intros bs E. destruct bs as [|b bs]; [discriminate|]. inversion E; subst. cbn. unfold tensor_of. cbn [existsb forallb is_float is_bool orb andb].
    assert (existsb is_float (map (@VBool V D T F) bs) = false) as -> .
    { clear. induction bs; cbn; auto. }
    assert (forallb is_bool (map (@VBool V D T F) bs) = true) as -> .
    { clear. induction bs; cbn; auto. }
    cbn. assert (mapM as_bool (map (@VBool V D T F) bs) = Ok bs) as ->; [|reflexivity]. clear. induction bs; cbn; auto. rewrite IHbs. reflexivity.
Qed.

(** C76: complexes anywhere within the samples (such as in pairs with an identifier) are batched, and what a network computes
    from the batch at that place is what it computes for each of the samples alone. *)
Theorem C76_predictions (o : ops V) (Hdiv : vdivn o (vzero o) 1 = vzero o) (m : net V) (elem : value) rest r p ks szs :
  Forall (similar elem) rest -> collater (elem :: rest) = Ok r -> parts_at (elem :: rest) p (map VComplex ks) ->
  cwn_net o m -> Forall2 wf_complex ks szs -> Forall (has_features max_dim) ks -> Forall (fun sz => 0 < sz 0) szs ->
  exists b vecs out b', bpart_at r p = Some (BComplex b vecs) /\ net_forward o m b = Ok (out, b') /\ length out = length (elem :: rest) /\
    forall i k v, nth_error ks i = Some k -> nth_error out i = Some v ->
      exists b1 b1', from_complex_list [k] max_dim = Ok b1 /\ net_forward o m b1 = Ok ([v], b1').
Proof.
  intros HS E Hp Hm HW HF Hpos. destruct (proj2 (C76_places elem rest r p HS E) _ Hp) as (bb & Eb & Ec).
  pose proof (Forall2_length Hp) as HL. rewrite map_length in HL.
  assert (Hne : ks <> []) by (intros ->; discriminate HL).
  destruct (C06_batch_independence o Hdiv m ks szs max_dim Hm Hne HW HF Hpos) as (b & out & b' & E1 & E2 & L & H).
  destruct ks as [|k ks]; [congruence|]. cbn in Ec.
  assert (Em : mapM as_complex (map (@VComplex V D T F) ks) = Ok ks).
  { clear. induction ks; cbn; auto. rewrite IHks. reflexivity. }
  rewrite Em in Ec. cbn [bind] in Ec. apply bind_ok in Ec as ([b0 vecs] & Ef & Ec). inversion Ec; subst bb.
  assert (b0 = b) as ->.
  { unfold from_complex_list_f in Ef. apply bind_ok in Ef as (b2 & E0 & Ef). apply bind_ok in Ef as (? & _ & Ef). inversion Ef; subst. congruence. }
  exists b, vecs, out, b'. split; auto. split; auto. split; [rewrite HL; exact L|exact H].
Qed.
(** C76: what a batch holds where samples have strings, tensors or graphs: everything, in the order of the samples, as a list,
    stacked or batched by the library.  Samples of other kinds are refused. *)
Theorem C76_leaves (elem : value) rest r p :
  Forall (similar elem) rest -> collater (elem :: rest) = Ok r ->
  (forall ss, parts_at (elem :: rest) p (map VStr ss) -> bpart_at r p = Some (BRaw (map VStr ss))) /\
  (forall ts, parts_at (elem :: rest) p (map VTensor ts) -> exists b, stack ts = Ok b /\ bpart_at r p = Some (BTensor b)) /\
  (forall gs, parts_at (elem :: rest) p (map VGraph gs) -> exists b, batch_graphs gs = Ok b /\ bpart_at r p = Some (BGraph b)) /\
  ~ parts_at (elem :: rest) p (map (fun _ => VOther) (elem :: rest)).
Proof.
  intros HS E. pose proof (proj2 (C76_places elem rest r p HS E)) as HP.
  assert (Hne : forall A (f : A -> value) l, parts_at (elem :: rest) p (map f l) -> exists a l', l = a :: l').
  { intros A f [|a l] H; [inversion H|eauto]. }
  repeat apply conj.
  - intros ss Hp. destruct (Hne _ _ _ Hp) as (s & ss' & ->). destruct (HP _ Hp) as (b & Eb & Ec). cbn in Ec. inversion Ec. subst b. exact Eb.
  - intros ts Hp. destruct (Hne _ _ _ Hp) as (t & ts' & ->). destruct (HP _ Hp) as (b & Eb & Ec). cbn [map CollaterModel.collater CollaterModel.coll] in Ec.
    assert (Em : mapM as_tensor (map (@VTensor V D T F) ts') = Ok ts') by (clear; induction ts'; cbn; auto; rewrite IHts'; reflexivity).
    rewrite Em in Ec. cbn [bind] in Ec. apply bind_ok in Ec as (c & E1 & E2). inversion E2; subst b. eauto.
  - intros ts Hp. destruct (Hne _ _ _ Hp) as (t & ts' & ->). destruct (HP _ Hp) as (b & Eb & Ec). cbn [map CollaterModel.collater CollaterModel.coll] in Ec.
    assert (Em : mapM as_graph (map (@VGraph V D T F) ts') = Ok ts') by (clear; induction ts'; cbn; auto; rewrite IHts'; reflexivity).
    rewrite Em in Ec. cbn [bind] in Ec. apply bind_ok in Ec as (c & E1 & E2). inversion E2; subst b. eauto.
  - intros Hp. destruct (HP _ Hp) as (b & Eb & Ec). discriminate Ec.
Qed.
End Samples.

(** ** Examples *)
Definition ex_collater follow := @collater Z unit unit (list Z) Z Z (fun _ => Ok tt) (fun l => Ok (concat l)) (fun t => Ok (map (fun z => [z]) t)) (fun x => x) (fun x => x) follow 2.
Definition sample (k : complex Z) (i : Z) (s : string) : value Z unit (list Z) Z :=
  VMap [("graph"%string, VComplex k); ("ids"%string, VSeq [VInt i; VStr s])].
Definition samples := [sample house 3%Z "a"; sample point 5%Z "b"; sample path3 7%Z "c"].
Example C76_ex_samples :
  Forall (alike (sample house 3%Z "a")) (skipn 1 samples) /\ proper (sample house 3%Z "a") /\
  exists r b vecs, ex_collater ["upper_index"%string] samples = Ok r /\
    bpart_at r [Key "graph"] = Some (BComplex b vecs) /\ from_complex_list trio 2 = Ok b /\
    bpart_at r [Key "ids"; Idx 0] = Some (BInts [3; 5; 7]%Z) /\ bpart_at r [Key "ids"; Idx 2] = None.
Proof.
  split; [|split].
  - assert (H : forall k i s k' i' s', alike (sample k i s) (sample k' i' s')); [|repeat constructor; apply H].
    intros k i s k' i' s' [|[key|j] p]; cbn; auto. destruct (string_dec key "graph"); [destruct p as [|[?|?] ?]; reflexivity|].
    destruct (string_dec key "ids"); [|reflexivity]. destruct p as [|[?|j] p]; cbn; auto. destruct j as [|[|[|j]]]; cbn; try (destruct p as [|[?|?] ?]; reflexivity); reflexivity.
  - intros [|[key|j] p] u; cbn; intros E; try (inversion E; subst; cbn).
    + repeat constructor; cbn; intuition discriminate.
    + destruct (string_dec key "graph"); [destruct p as [|[?|?] ?]; inversion E; exact I|]. destruct (string_dec key "ids"); [|discriminate].
      destruct p as [|[?|j] p]; cbn in E; try discriminate; [inversion E; exact I|]. destruct j as [|[|[|j]]]; cbn in E; try discriminate; destruct p as [|[?|?] ?]; inversion E; exact I.
  - do 3 eexists. split; [vm_compute; reflexivity|]. split; [reflexivity|]. split; [vm_compute; reflexivity|]. split; reflexivity.
Qed.
(** [upper_index] of the vertices: the house has 12 entries, the point none, the path 4. *)
Example C76_ex_leaves : exists r, ex_collater [] samples = Ok r /\ bpart_at r [Key "ids"; Idx 1] = Some (BRaw (map VStr ["a"; "b"; "c"]%string)).
Proof. eexists. split; reflexivity. Qed.
Example C76_ex_follow : exists b vs, from_complex_list_f ["upper_index"%string; "x"%string] trio 2 = Ok (b, vs) /\
  nth_error vs 0 = Some [("upper_index_batch"%string, owners 0 [12; 0; 4])].
Proof. do 2 eexists. split; vm_compute; reflexivity. Qed.

(** C76, refuted: nothing that samples have is dropped.  Lists of different lengths are cut to the shortest. *)
Theorem C76_lossless_refuted :
  ~ (forall (v : value Z unit (list Z) Z) rest r p u, Forall (similar v) rest -> ex_collater [] (v :: rest) = Ok r ->
       part_at v p = Some u -> bpart_at r p <> None).
Proof.
  intros H. apply (H (VSeq [VInt 1; VInt 2]%Z) [VSeq [VInt 3%Z]] (BSeq [BInts [1; 3]%Z]) [Idx 1] (VInt 2%Z)); try reflexivity.
  constructor; [|constructor]. intros [|[k|j] p] u u'; cbn; intros E E'; try discriminate.
  - inversion E; inversion E'; subst. reflexivity.
  - destruct j as [|j]; [|destruct j; discriminate E']. cbn in *. destruct p as [|[?|?] ?]; try discriminate. cbn in *. inversion E; inversion E'; subst. reflexivity.
Qed.
(** C76, refuted: following a key works in any order of the complexes.  If the first complex has no ring but a later one has,
    following [boundary_index] raises AttributeError. *)
Theorem C76_follow_order_refuted :
  ~ (forall (ks ks' : list (complex Z)) szs follow r, Permutation ks ks' -> Forall2 wf_complex ks szs ->
       from_complex_list_f follow ks 2 = Ok r -> exists r', from_complex_list_f follow ks' 2 = Ok r').
Proof.
  intros H. assert (E : exists r, from_complex_list_f ["boundary_index"%string] [house; path3] 2 = Ok r) by (eexists; vm_compute; reflexivity). destruct E as (r & E).
  destruct (H [house; path3] [path3; house] [house_sz; path3_sz] ["boundary_index"%string] r) as (r' & E'); auto.
  - constructor.
  - constructor; [apply house_wf|constructor; [apply path3_wf|constructor]].
  - assert (X : from_complex_list_f ["boundary_index"%string] [path3; house] 2 = Err AttributeError) by (vm_compute; reflexivity). congruence.
Qed.

Print Assumptions C76_follow.
Print Assumptions C76_follow_x_ignored.
Print Assumptions C76_follow_features.
Print Assumptions C76_places.
Print Assumptions C76_alike.
Print Assumptions C76_numbers.
Print Assumptions C76_predictions.
Print Assumptions C76_lossless_refuted.
Print Assumptions C76_follow_order_refuted.
Print Assumptions C76_leaves.
