(** The tokens of a command line and the grammar. *)
From Coq Require Import String Ascii List ZArith QArith Bool Lia.
From Verif Require Import Base LaunchModel LaunchProofs CommandModel CommandSpec.
Import ListNotations.
Open Scope string_scope.

(** ** Strings *)
Lemma app_nil s : s ++ "" = s.
Proof. induction s as [|c s IH]; [reflexivity|]. cbn. now rewrite IH. Qed.
Lemma app_assoc_s p q r : (p ++ q) ++ r = p ++ q ++ r.
Proof. induction p as [|c p IH]; [reflexivity|]. cbn. now rewrite IH. Qed.
Lemma app_inj p q r : p ++ q = p ++ r -> q = r.
Proof. induction p as [|c p IH]; cbn; intros H; [exact H|]. injection H. auto. Qed.
Lemma letters_app p q : letters (p ++ q) = (letters p ++ letters q)%list.
Proof. unfold letters. induction p as [|c p IH]; [reflexivity|]. cbn. now rewrite IH. Qed.
Lemma starts_iff t p : startswith t p = true <-> exists rest, t = p ++ rest.
Proof.
  unfold startswith. revert t. induction p as [|c p IH]; intros t.
  - split; [exists t; reflexivity|]. destruct t; reflexivity.
  - destruct t as [|d t]; [split; [discriminate|intros (r & H); discriminate]|]. cbn [prefix].
    destruct (ascii_dec c d) as [->|N].
    + rewrite IH. split; intros (r & H); exists r; cbn in *; [now rewrite H|now injection H].
    + split; [discriminate|]. intros (r & H). cbn in H. injection H as H _. congruence.
Qed.

Lemma split_some d s p q : split_at d s = Some (p, q) <-> s = p ++ String d q /\ lacks d p.
Proof.
  unfold lacks. revert p q. induction s as [|c s IH]; intros p q; cbn [split_at].
  - split; [discriminate|]. intros [H _]. destruct p; discriminate.
  - destruct (Ascii.eqb_spec c d) as [->|N].
    + split.
      * intros H. injection H as <- <-. split; [reflexivity|intros []].
      * intros [H Hp]. destruct p as [|c p]; cbn in H; [now injection H as <-|].
        injection H as -> _. cbn in Hp. tauto.
    + destruct (split_at d s) as [[p' q']|] eqn:E.
      * split.
        { intros H. injection H as <- <-. destruct (proj1 (IH p' q') eq_refl) as [-> H]. split; [reflexivity|].
          cbn. intros [->|X]; [congruence|tauto]. }
        { intros [H Hp]. destruct p as [|c' p]; cbn in H; [injection H as -> _; congruence|].
          injection H as -> H. assert (X : Some (p', q') = Some (p, q)); [|now injection X as -> ->].
          apply IH. split; [exact H|]. cbn in Hp. tauto. }
      * split; [discriminate|]. intros [H Hp]. exfalso.
        destruct p as [|c' p]; cbn in H; [injection H as -> _; congruence|]. injection H as -> H.
        assert (X : None = Some (p, q)); [|discriminate]. apply IH. split; [exact H|]. cbn in Hp. tauto.
Qed.
Lemma split_none d s : split_at d s = None <-> lacks d s.
Proof.
  unfold lacks. induction s as [|c s IH]; cbn [split_at letters list_ascii_of_string In]; [tauto|].
  destruct (Ascii.eqb_spec c d) as [->|N]; [split; [discriminate|tauto]|].
  fold (letters s). destruct (split_at d s) as [[p q]|]; [|tauto].
  split; [discriminate|]. intros H. exfalso. assert (X : Some (p, q) = None) by (apply IH; tauto). discriminate.
Qed.
Lemma has_iff d s : has d s = true <-> In d (letters s).
Proof.
  unfold has. destruct (split_at d s) as [[p q]|] eqn:E; cbn [isSome].
  - apply split_some in E as [-> _]. split; [|reflexivity]. intros _. rewrite letters_app. apply in_or_app. right. now left.
  - apply split_none in E. split; [discriminate|]. intros H. contradiction.
Qed.
Lemma digit_iff c : is_digit c = true <-> In c ["0"; "1"; "2"; "3"; "4"; "5"; "6"; "7"; "8"; "9"]%char.
Proof.
  assert (E : is_digit c = existsb (Ascii.eqb c) ["0"; "1"; "2"; "3"; "4"; "5"; "6"; "7"; "8"; "9"]%char)
    by (destruct c as [[] [] [] [] [] [] [] []]; vm_compute; reflexivity).
  rewrite E, existsb_exists. split.
  - intros (x & H & Ex). apply Ascii.eqb_eq in Ex as ->. exact H.
  - intros H. exists c. split; [exact H|apply Ascii.eqb_refl].
Qed.
Lemma all_digits_iff s : all_digits s = true <-> digits s.
Proof.
  unfold digits, letters. induction s as [|c s IH]; cbn [all_digits list_ascii_of_string]; [split; [constructor|reflexivity]|].
  rewrite andb_true_iff, digit_iff, IH. split; [intros [H1 H2]; now constructor|intros H; inversion H; auto].
Qed.
Lemma digits_lack c s : digits s -> ~ In c ["0"; "1"; "2"; "3"; "4"; "5"; "6"; "7"; "8"; "9"]%char -> lacks c s.
Proof. unfold digits, lacks. intros H N Hc. rewrite Forall_forall in H. exact (N (H c Hc)). Qed.
Lemma negative_iff s : negative_number s = true <->
  (exists d, digits d /\ d <> "" /\ s = "-" ++ d) \/
  (exists p q, digits p /\ digits q /\ q <> "" /\ s = "-" ++ p ++ "." ++ q).
Proof.
  destruct s as [|c r]; cbn [negative_number]; [split; [discriminate|]; intros [(? & _ & _ & H)|(? & ? & _ & _ & _ & H)]; discriminate|].
  rewrite andb_true_iff, orb_true_iff, Ascii.eqb_eq, andb_true_iff, negb_true_iff, String.eqb_neq, all_digits_iff. split.
  - intros [-> [[H1 H2]|H]]; [left; exists r; auto|].
    destruct (split_at "." r) as [[p q]|] eqn:E; [|discriminate]. apply split_some in E as [-> _].
    rewrite !andb_true_iff, negb_true_iff, String.eqb_neq, !all_digits_iff in H. right. exists p, q. tauto.
  - intros [(d & H1 & H2 & H)|(p & q & H1 & H2 & H3 & H)]; cbn [append] in H; injection H as -> ->.
    + auto.
    + split; [reflexivity|]. right.
      assert (E : split_at "." (p ++ String "." q) = Some (p, q)).
      { apply split_some. split; [reflexivity|]. apply (digits_lack "."); [exact H1|].
        intros X. repeat (destruct X as [X|X]; [discriminate|]). exact X. }
      rewrite E, !andb_true_iff, negb_true_iff, String.eqb_neq, !all_digits_iff. auto.
Qed.

(** ** The table of options *)
Lemma names_nodup e : NoDup (map fst (options e)).
Proof.
  change (map fst (options e)) with (map fst (options (mkEnv (fun _ => None) (fun _ => None) "" ""))).
  set (l := map fst _). assert (E : nodup string_dec l = l) by (vm_compute; reflexivity).
  rewrite <- E. apply NoDup_nodup.
Qed.
Lemma nodup_fun {A} (l : list (string * A)) n x y : NoDup (map fst l) -> In (n, x) l -> In (n, y) l -> x = y.
Proof.
  induction l as [|[m z] l IH]; intros N Hx Hy; [destruct Hx|]. cbn in N. inversion N as [|? ? N1 N2 Q]; subst.
  destruct Hx as [Hx|Hx], Hy as [Hy|Hy].
  - congruence.
  - injection Hx as -> ->. exfalso. apply N1. change n with (fst (n, y)). now apply in_map.
  - injection Hy as -> ->. exfalso. apply N1. change n with (fst (n, x)). now apply in_map.
  - auto.
Qed.
Lemma named_fun e n k k' : named e n k -> named e n k' -> k = k'.
Proof. intros (d & H) (d' & H'). assert (E := nodup_fun _ _ _ _ (names_nodup e) H H'). congruence. Qed.

Lemma exact_some e s n k : exact e s = Some (n, k) <-> named e n k /\ s = "--" ++ n.
Proof.
  unfold exact. split.
  - destruct (find _ _) as [[m [k' d]]|] eqn:E; [|discriminate]. intros H. injection H as -> ->.
    apply find_some in E as [E1 E2]. apply String.eqb_eq in E2. split; [exists d; exact E1|exact E2].
  - intros [(d & Hd) ->]. destruct (find _ _) as [[m [k' d']]|] eqn:E.
    + apply find_some in E as [E1 E2]. apply String.eqb_eq in E2. apply (app_inj "--") in E2. cbn [fst] in E2. subst m.
      assert (X := nodup_fun _ _ _ _ (names_nodup e) Hd E1). congruence.
    + apply (find_none _ _ E) in Hd. cbn [fst] in Hd. rewrite String.eqb_refl in Hd. discriminate.
Qed.
Lemma exact_none e s : exact e s = None <-> forall n k, named e n k -> s <> "--" ++ n.
Proof.
  split.
  - intros E n k H ->. assert (X : exact e ("--" ++ n) = Some (n, k)) by (apply exact_some; auto). congruence.
  - intros H. destruct (exact e s) as [[n k]|] eqn:E; [|reflexivity]. apply exact_some in E as [E1 E2]. exfalso. exact (H _ _ E1 E2).
Qed.
Lemma matching_in e p n k : In (n, k) (matching e p) <-> named e n k /\ begins p n.
Proof.
  unfold matching. rewrite in_map_iff. split.
  - intros ([m [k' d]] & E & H). cbn [fst snd] in E. injection E as -> ->. apply filter_In in H as [H1 H2]. cbn [fst] in H2.
    apply starts_iff in H2. split; [exists d; exact H1|exact H2].
  - intros [(d & H) B]. exists (n, (k, d)). split; [reflexivity|]. apply filter_In. split; [exact H|]. cbn [fst]. now apply starts_iff.
Qed.
Lemma filter_map_nodup {A} (f : string * A -> bool) l : NoDup (map fst l) -> NoDup (map fst (filter f l)).
Proof.
  induction l as [|x l IH]; cbn; intros H; [constructor|]. inversion H as [|? ? H1 H2 Q]; subst.
  destruct (f x); [|auto]. cbn. constructor; [|auto]. intros X. apply H1. apply in_map_iff in X as (y & E & X).
  apply filter_In in X as [X _]. rewrite <- E. now apply in_map.
Qed.
Lemma matching_nodup e p : NoDup (map fst (matching e p)).
Proof.
  unfold matching. rewrite map_map. cbn [fst].
  change (NoDup (map fst (filter (fun o => startswith ("--" ++ fst o) p) (options e)))).
  apply filter_map_nodup, names_nodup.
Qed.
Lemma matching_one e p n k : matching e p = [(n, k)] <->
  named e n k /\ begins p n /\ (forall m k', named e m k' -> begins p m -> m = n).
Proof.
  split.
  - intros E. assert (H : In (n, k) (matching e p)) by (rewrite E; now left). apply matching_in in H as [H1 H2].
    split; [exact H1|]. split; [exact H2|]. intros m k' Hm Bm.
    assert (H : In (m, k') (matching e p)) by (apply matching_in; auto). rewrite E in H. destruct H as [H|[]]. congruence.
  - intros (H1 & H2 & H3). assert (H : In (n, k) (matching e p)) by (apply matching_in; auto).
    pose proof (matching_nodup e p) as N.
    assert (U : forall m k', In (m, k') (matching e p) -> m = n) by (intros m k' Hm; apply matching_in in Hm as [Hm Bm]; eauto).
    destruct (matching e p) as [|[a ka] [|[b kb] l]]; [destruct H| |].
    + destruct H as [H|[]]. congruence.
    + exfalso. cbn in N. inversion N as [|? ? N1 _ Q]; subst. apply N1. left.
      rewrite (U a ka), (U b kb); cbn; auto.
Qed.
Lemma matching_nil e p : matching e p = [] <-> forall m k', named e m k' -> ~ begins p m.
Proof.
  split.
  - intros E m k' Hm Bm. assert (H : In (m, k') (matching e p)) by (apply matching_in; auto). rewrite E in H. destruct H.
  - intros H. destruct (matching e p) as [|[m k] l] eqn:E; [reflexivity|].
    assert (X : In (m, k) (matching e p)) by (rewrite E; now left). apply matching_in in X as [X1 X2]. exfalso. eapply H; eauto.
Qed.
(** The beginnings of all options begin two options. *)
Lemma begins_all e p n : p = "" \/ p = "-" \/ p = "--" -> ~ (forall m k', named e m k' -> begins p m -> m = n).
Proof.
  intros Hp H.
  assert (B : forall m, begins p m).
  { intros m. destruct Hp as [->|[->| ->]]; [exists ("--" ++ m)|exists ("-" ++ m)|exists m]; reflexivity. }
  assert (S : "seed" = n) by (apply (H _ KInt); [exists (VInt 43); cbn; tauto|apply B]).
  assert (D : "device" = n) by (apply (H _ KInt); [exists (VInt 0); cbn; tauto|apply B]).
  congruence.
Qed.

(** ** Tokens *)
Lemma other_arg s : other s = TArg <-> negative_number s = true \/ In " "%char (letters s).
Proof.
  unfold other. rewrite <- has_iff. destruct (negative_number s), (has " " s); split; auto; try discriminate;
    intros [H|H]; discriminate.
Qed.
Lemma other_opt s n k x : other s <> TOpt n k x.
Proof. unfold other. destruct (negative_number s), (has " " s); discriminate. Qed.

Lemma not_dash_neq c r : c <> "-"%char -> forall n, String "-" (String c r) <> "--" ++ n.
Proof. intros N n H. cbn in H. injection H as H _. congruence. Qed.
Lemma digits_head d : digits d -> d <> "" -> exists c r, d = String c r /\ c <> "-"%char /\ c <> "h"%char /\ c <> "="%char.
Proof.
  intros H N. destruct d as [|c r]; [congruence|]. exists c, r. split; [reflexivity|].
  inversion H as [|? ? X _ Q]; subst. repeat split; intros ->; repeat (destruct X as [X|X]; [discriminate|]); destruct X.
Qed.

(** A token of one dash and something else. *)
Lemma classify_short e c r : c <> "-"%char -> c <> "h"%char -> classify e (String "-" (String c r)) = other (String "-" (String c r)).
Proof.
  intros N1 N2. cbn [classify]. cbn [Ascii.eqb Bool.eqb negb].
  assert (X : exact e (String "-" (String c r)) = None) by (apply exact_none; intros; now apply not_dash_neq).
  rewrite X. cbn [String.eqb]. cbn [Ascii.eqb Bool.eqb].
  assert (D : (c =? "-")%char = false) by now apply Ascii.eqb_neq. rewrite D.
  assert (F : startswith (String "-" (String c r)) "--" = false).
  { apply not_true_iff_false. rewrite starts_iff. intros (q & H). cbn in H. injection H as H _. congruence. }
  assert (G : startswith (String "-" (String c r)) "-h" = false).
  { apply not_true_iff_false. rewrite starts_iff. intros (q & H). cbn in H. injection H as H _. congruence. }
  rewrite F, G. destruct (split_at "=" _) as [[p x]|] eqn:E; [|reflexivity].
  apply split_some in E as [E _].
  assert (Y : exact e p = None).
  { apply exact_none. intros m k _ ->. cbn in E. injection E as E _. congruence. }
  now rewrite Y.
Qed.

(** A token of two dashes. *)
Definition before (s : string) : string := match split_at "=" s with Some (p, _) => p | None => s end.
Definition after (s : string) : option string := match split_at "=" s with Some (_, x) => Some x | None => None end.
Lemma named_lacks e n k : named e n k -> lacks "=" ("--" ++ n) /\ lacks " " ("--" ++ n).
Proof.
  intros (d & H).
  assert (F : Forall (fun o => negb (has "=" ("--" ++ fst o)) && negb (has " " ("--" ++ fst o)) = true)%bool (options e)).
  { unfold options. repeat (constructor; [vm_compute; reflexivity|]). constructor. }
  rewrite Forall_forall in F. specialize (F _ H). cbn [fst] in F.
  rewrite andb_true_iff, !negb_true_iff in F. unfold lacks. rewrite <- !has_iff. destruct F as [-> ->]. split; discriminate.
Qed.
Lemma stands_begins e p n k : stands_for e p n k -> begins p n.
Proof. intros [_ [->|(_ & H & _)]]; [|exact H]. exists "". now rewrite app_nil. Qed.
Lemma begins_lacks e p n k c : named e n k -> begins p n -> lacks c ("--" ++ n) -> lacks c p.
Proof. intros _ (r & E) H. unfold lacks in *. rewrite E, letters_app in H. intros X. apply H. apply in_or_app. now left. Qed.
(** An abbreviation starts with two dashes and a letter. *)
Lemma stands_dashes e p n k : stands_for e p n k -> exists c r, p = String "-" (String "-" (String c r)).
Proof.
  intros [Hn [->|(_ & (r & E) & U)]].
  - cbn. destruct n as [|c r]; [|eauto]. exfalso. destruct Hn as (d & H).
    assert (F : Forall (fun o => negb (fst o =? "") = true)%bool (options e))
      by (unfold options; repeat (constructor; [vm_compute; reflexivity|]); constructor).
    rewrite Forall_forall in F. specialize (F _ H). discriminate.
  - destruct p as [|c1 [|c2 [|c3 p]]].
    + exfalso. eapply begins_all; [left; reflexivity|exact U].
    + cbn in E. injection E as <- E. exfalso. eapply begins_all; [right; left; reflexivity|exact U].
    + cbn in E. injection E as <- <- E. exfalso. eapply begins_all; [right; right; reflexivity|exact U].
    + cbn in E. injection E as <- <- E. eauto.
Qed.

Lemma classify_long e c r : let s := String "-" (String "-" (String c r)) in
  classify e s = match exact e s with
    | Some (n, k) => TOpt n k None
    | None => match (match after s with Some x => match exact e (before s) with Some (n, k) => Some (TOpt n k (Some x)) | None => None end | None => None end) with
              | Some t => t
              | None => match matching e (before s) with [(n, k)] => TOpt n k (after s) | [] => other s | _ => TWrong end
              end
    end.
Proof.
  intros s. unfold classify, s. cbn [Ascii.eqb Bool.eqb negb]. fold s. destruct (exact e s) as [[n k]|]; [reflexivity|].
  cbn [String.eqb]. cbn [Ascii.eqb Bool.eqb].
  assert (Y : (s =? "--") = false) by (unfold s; reflexivity). rewrite ?Y.
  assert (F : startswith s "--" = true) by (apply starts_iff; exists (String c r); reflexivity).
  unfold before, after. destruct (split_at "=" s) as [[p x]|]; [destruct (exact e p) as [[n k]|]; [reflexivity|]|]; rewrite F; reflexivity.
Qed.

Lemma before_after s : s = match after s with Some x => before s ++ "=" ++ x | None => before s end /\ lacks "=" (before s).
Proof.
  unfold before, after. destruct (split_at "=" s) as [[p x]|] eqn:E.
  - apply split_some in E as [-> H]. auto.
  - apply split_none in E. auto.
Qed.

(** Options. *)
Definition written (e : env) (t : string) (n : string) (k : kind) (x : option string) : Prop :=
  match x with
  | None => stands_for e t n k
  | Some v => exists p, t = p ++ "=" ++ v /\ stands_for e p n k
  end.


Lemma classify_written e s n k x : classify e s = TOpt n k x <-> written e s n k x.
Proof.
  split.
  - intros H. destruct s as [|c1 s1]; [discriminate|].
    destruct (Ascii.eqb_spec c1 "-") as [->|N1].
    2:{ cbn [classify] in H. apply Ascii.eqb_neq in N1. rewrite N1 in H. discriminate. }
    destruct s1 as [|c2 s2].
    { cbn [classify] in H. cbn [Ascii.eqb Bool.eqb negb] in H. destruct (exact e "-") as [[m k']|] eqn:E; [|discriminate].
      apply exact_some in E as [_ E]. discriminate. }
    destruct (Ascii.eqb_spec c2 "-") as [->|N2].
    2:{ destruct (Ascii.eqb_spec c2 "h") as [->|N3].
        - cbn [classify] in H. cbn [Ascii.eqb Bool.eqb negb] in H.
          destruct (exact e (String "-" (String "h" s2))) as [[m k']|] eqn:E.
          { apply exact_some in E as [_ E]. discriminate. }
          cbn [String.eqb] in H. cbn [Ascii.eqb Bool.eqb] in H.
          assert (F : startswith (String "-" (String "h" s2)) "--" = false) by (destruct s2; reflexivity).
          assert (G : startswith (String "-" (String "h" s2)) "-h" = true) by (apply starts_iff; exists s2; reflexivity).
          rewrite F, G in H. destruct (split_at "=" _) as [[p y]|] eqn:C; [|discriminate].
          destruct (exact e p) as [[m k']|] eqn:E2; [|discriminate].
          apply exact_some in E2 as [_ ->]. apply split_some in C as [C _]. discriminate.
        - rewrite classify_short in H by assumption. exfalso. exact (other_opt _ _ _ _ H). }
    destruct s2 as [|c3 s3].
    { cbn [classify] in H. cbn [Ascii.eqb Bool.eqb negb] in H. destruct (exact e "--") as [[m k']|] eqn:E; [|discriminate].
      injection H as <- <- <-. cbn [written]. apply exact_some in E as [E1 E2]. split; [exact E1|]. now left. }
    rewrite classify_long in H. cbv zeta in H. set (s := String "-" (String "-" (String c3 s3))) in *.
    destruct (exact e s) as [[m k']|] eqn:E.
    { injection H as <- <- <-. cbn [written]. apply exact_some in E as [E1 E2]. split; [exact E1|]. now left. }
    destruct (before_after s) as [BA BL].
    pose proof (proj1 (exact_none e s) E) as En.
    destruct (after s) as [y|] eqn:A.
    + destruct (exact e (before s)) as [[m k']|] eqn:E2.
      * injection H as <- <- <-. cbn [written]. exists (before s). split; [exact BA|]. apply exact_some in E2 as [E3 E4].
        split; [exact E3|]. now left.
      * destruct (matching e (before s)) as [|[m k'] [|]] eqn:M; [exfalso; exact (other_opt _ _ _ _ H)| |discriminate].
        injection H as <- <- <-. cbn [written]. exists (before s). split; [exact BA|].
        apply matching_one in M as (M1 & M2 & M3). split; [exact M1|]. right. split; [|auto]. now apply exact_none.
    + destruct (matching e (before s)) as [|[m k'] [|]] eqn:M; [exfalso; exact (other_opt _ _ _ _ H)| |discriminate].
      injection H as <- <- <-. cbn [written]. rewrite <- BA in M.
      apply matching_one in M as (M1 & M2 & M3). split; [exact M1|]. right. auto.
  - intros H.
    assert (P : exists p, stands_for e p n k /\ s = match x with Some v => p ++ "=" ++ v | None => p end).
    { destruct x as [v|]; cbn [written] in H; [destruct H as (p & -> & H); eauto|eauto]. }
    destruct P as (p & S & Es). pose proof (stands_dashes _ _ _ _ S) as (c & r & Ep).
    assert (Lp : lacks "=" p).
    { eapply begins_lacks; [apply S|eapply stands_begins; exact S|]. eapply named_lacks. apply S. }
    assert (Bs : before s = p /\ after s = x).
    { unfold before, after. destruct x as [v|].
      - assert (Q : split_at "=" s = Some (p, v)) by (apply split_some; auto). rewrite Q. auto.
      - assert (Q : split_at "=" s = None) by (apply split_none; now subst s). rewrite Q. auto. }
    destruct Bs as [B A].
    assert (Long : exists c r, s = String "-" (String "-" (String c r))).
    { rewrite Es, Ep. destruct x; cbn; eauto. }
    destruct Long as (c' & r' & Es'). rewrite Es', classify_long. cbv zeta. rewrite <- Es'. clear c' r' Es'.
    rewrite B, A. destruct S as [Sn S].
    destruct (exact e s) as [[m k']|] eqn:E.
    + apply exact_some in E as [E1 E2]. destruct x as [v|].
      * exfalso. apply (proj1 (named_lacks _ _ _ E1)). rewrite <- E2, Es, letters_app. apply in_or_app. right. now left.
      * subst s. destruct S as [->|(S & _)]; [|exfalso; eapply S; eauto].
        apply (app_inj "--") in E2 as <-. now rewrite (named_fun _ _ _ _ E1 Sn).
    + destruct S as [->|(S1 & S2 & S3)].
      * destruct x as [v|]; [|exfalso; rewrite Es in E; eapply exact_none; eauto].
        assert (Q : exact e ("--" ++ n) = Some (n, k)) by (apply exact_some; auto). now rewrite Q.
      * assert (Q : exact e p = None) by now apply exact_none. rewrite Q.
        assert (M : matching e p = [(n, k)]) by (apply matching_one; auto). rewrite M. destruct x; reflexivity.
Qed.

(** Arguments. *)
Lemma negative_arg e s : negative_number s = true -> arglike e s.
Proof. intros H. apply negative_iff in H as [(d & H1 & H2 & ->)|(p & q & H1 & H2 & H3 & ->)]; [apply negative_integer|apply negative_decimal]; assumption. Qed.
Lemma space_tail c r : c <> " "%char -> In " "%char (letters (String c r)) -> In " "%char (letters r).
Proof. intros N [H|H]; [congruence|exact H]. Qed.
Lemma classify_arg e s : classify e s = TArg <-> arglike e s.
Proof.
  split.
  - intros H. destruct s as [|c1 s1]; [apply plain_text; discriminate|].
    destruct (Ascii.eqb_spec c1 "-") as [->|N1].
    2:{ apply plain_text. intros r E. cbn in E. injection E as E _. congruence. }
    destruct s1 as [|c2 s2]; [apply one_dash|].
    destruct (Ascii.eqb_spec c2 "-") as [->|N2].
    2:{ destruct (Ascii.eqb_spec c2 "h") as [->|N3].
        - exfalso. cbn [classify] in H. cbn [Ascii.eqb Bool.eqb negb] in H.
          destruct (exact e (String "-" (String "h" s2))) as [[m k']|] eqn:E; [discriminate|].
          cbn [String.eqb] in H. cbn [Ascii.eqb Bool.eqb] in H.
          assert (F : startswith (String "-" (String "h" s2)) "--" = false) by (destruct s2; reflexivity).
          assert (G : startswith (String "-" (String "h" s2)) "-h" = true) by (apply starts_iff; exists s2; reflexivity).
          rewrite F, G in H. destruct (split_at "=" _) as [[p y]|] eqn:C; [|discriminate].
          destruct (exact e p) as [[m k']|] eqn:E2; discriminate.
        - rewrite classify_short in H by assumption. apply other_arg in H as [H|H]; [now apply negative_arg|].
          apply (spaced_short e c2 s2); auto. apply (space_tail "-"); [discriminate|exact H]. }
    destruct s2 as [|c3 s3].
    { exfalso. cbn [classify] in H. cbn [Ascii.eqb Bool.eqb negb] in H. destruct (exact e "--") as [[m k']|]; discriminate. }
    rewrite classify_long in H. cbv zeta in H. set (s := String "-" (String "-" (String c3 s3))) in *.
    destruct (exact e s) as [[m k']|] eqn:E; [discriminate|]. destruct (before_after s) as [BA BL].
    assert (O : matching e (before s) = [] /\ other s = TArg).
    { destruct (after s) as [y|].
      - destruct (exact e (before s)) as [[m k']|]; [discriminate|].
        destruct (matching e (before s)) as [|[m k'] [|]]; [auto|discriminate|discriminate].
      - destruct (matching e (before s)) as [|[m k'] [|]]; [auto|discriminate|discriminate]. }
    destruct O as [M O]. apply other_arg in O as [O|O]; [now apply negative_arg|].
    set (rest := match after s with Some x => "=" ++ x | None => "" end).
    assert (Es : before s ++ rest = s).
    { symmetry. etransitivity; [exact BA|]. unfold rest. destruct (after s); [reflexivity|symmetry; apply app_nil]. }
    rewrite <- Es. apply spaced_long.
    + now rewrite Es.
    + rewrite Es. exists (String c3 s3). reflexivity.
    + exact BL.
    + unfold rest. destruct (after s); eauto.
    + now apply matching_nil.
  - intros H. destruct H as [v Hv| |d Hd Nd|p q Hp Hq Nq|c r Hr N1 N2|p rest Hs (r & Hr) Lp Hrest Hm].
    + destruct v as [|c r]; [reflexivity|]. cbn [classify]. destruct (Ascii.eqb_spec c "-") as [->|N]; [|reflexivity].
      exfalso. exact (Hv r eq_refl).
    + cbn [classify]. cbn [Ascii.eqb Bool.eqb negb]. assert (E : exact e "-" = None) by (apply exact_none; discriminate).
      rewrite E. reflexivity.
    + destruct (digits_head _ Hd Nd) as (c & r & -> & N1 & N2 & _). change ("-" ++ String c r) with (String "-" (String c r)).
      rewrite classify_short by assumption. apply other_arg. left. apply negative_iff. left. exists (String c r). auto.
    + assert (X : exists c r, p ++ "." ++ q = String c r /\ c <> "-"%char /\ c <> "h"%char).
      { destruct p as [|c r].
        - exists "."%char, q. repeat split; discriminate.
        - destruct (digits_head (String c r) Hp) as (c' & r' & E & N1 & N2 & _); [discriminate|]. injection E as <- <-.
          exists c, (r ++ "." ++ q). auto. }
      destruct X as (c & r & E & N1 & N2). rewrite E. change ("-" ++ String c r) with (String "-" (String c r)).
      rewrite classify_short by assumption. apply other_arg. left. apply negative_iff. right. exists p, q. rewrite E. auto.
    + change ("-" ++ String c r) with (String "-" (String c r)). rewrite classify_short by assumption. apply other_arg. right.
      right. exact Hr.
    + assert (X : exists c r', p ++ rest = String "-" (String "-" (String c r'))).
      { rewrite Hr in Hs. destruct r as [|c r]; [|cbn in Hr; eauto]. destruct Hs as [H|[H|[]]]; discriminate. }
      destruct X as (c & r' & E). rewrite E, classify_long. cbv zeta. rewrite <- E.
      assert (B : before (p ++ rest) = p).
      { unfold before. destruct Hrest as [->|(x & ->)].
        - rewrite app_nil. assert (Q : split_at "=" p = None) by now apply split_none. now rewrite Q.
        - assert (Q : split_at "=" (p ++ "=" ++ x) = Some (p, x)) by (apply split_some; auto). now rewrite Q. }
      assert (X1 : exact e (p ++ rest) = None).
      { apply exact_none. intros n k Hn Hp. apply (Hm n k Hn). exists rest. now symmetry. }
      assert (X2 : exact e p = None).
      { apply exact_none. intros n k Hn Hp. apply (Hm n k Hn). exists "". now rewrite app_nil. }
      rewrite X1, B, X2. assert (M : matching e p = []) by now apply matching_nil.
      assert (O : other (p ++ rest) = TArg) by (apply other_arg; auto).
      rewrite M, O. destruct (after (p ++ rest)); reflexivity.
Qed.

(** ** Whole command lines *)
Definition calm (p : pending) : Prop := match p with Want _ _ => False | _ => True end.
Lemma set_at ns n v o : set ns n v o = if string_dec o n then v else ns o.
Proof. unfold set. destruct (String.eqb_spec o n), (string_dec o n); congruence. Qed.
Lemma final_set its ns n v o : final its o (set ns n v o) = final ((n, v) :: its) o (ns o).
Proof. cbn [final]. now rewrite set_at. Qed.
Lemma set_same ns n v o : set (set ns n v) n v o = set ns n v o.
Proof. rewrite !set_at. destruct (string_dec o n); reflexivity. Qed.

Lemma read_tokens_app e l1 l2 st : read_tokens e st (l1 ++ l2) = (let* st := read_tokens e st l1 in read_tokens e st l2).
Proof.
  revert st. induction l1 as [|s l1 IH]; intros st; [reflexivity|]. cbn [read_tokens List.app].
  destruct (read_token e st s) as [st'|x]; cbn [bind]; [apply IH|reflexivity].
Qed.

Lemma reads_convert e k v x : reads e k v x -> convert e k v = Some x /\ k <> KFlag /\ k <> KInts /\ k <> KHelp.
Proof.
  intros H. destruct H as [v z H|v q H|v|l v H]; cbn [convert].
  - rewrite H. repeat split; discriminate.
  - rewrite H. repeat split; discriminate.
  - repeat split; discriminate.
  - assert (E : among v l = true) by now apply among_In. rewrite E. repeat split; discriminate.
Qed.
Lemma convert_reads e k v x : convert e k v = Some x -> reads e k v x.
Proof.
  destruct k; cbn [convert]; intros H; try discriminate.
  - destruct (e_int e v) eqn:E; [|discriminate]. injection H as <-. now constructor.
  - destruct (e_float e v) eqn:E; [|discriminate]. injection H as <-. now constructor.
  - injection H as <-. constructor.
  - destruct (among v l) eqn:E; [|discriminate]. injection H as <-. constructor. now apply among_In.
Qed.

Lemma read_more e n vs zs : Forall2 (fun v z => arglike e v /\ e_int e v = Some z) vs zs ->
  forall (ns : space) l, ns n = VInts l ->
  exists ns', read_tokens e (ns, More n l) vs = Ok (ns', More n (l ++ zs)) /\ forall o, ns' o = set ns n (VInts (l ++ zs)) o.
Proof.
  intros H. induction H as [|v z vs zs [A I] H IH]; intros ns l E.
  - exists ns. rewrite app_nil_r. split; [reflexivity|]. intros o. rewrite set_at. destruct (string_dec o n) as [->|]; auto.
  - cbn [read_tokens]. unfold read_token. apply classify_arg in A. rewrite A, I. cbn [of_option bind].
    destruct (IH (set ns n (VInts (l ++ [z]))) (l ++ [z])%list) as (ns' & E1 & E2).
    { rewrite set_at. destruct (string_dec n n); congruence. }
    exists ns'. rewrite <- app_assoc in E1. split; [exact E1|]. intros o. rewrite E2, !set_at, <- app_assoc.
    destruct (string_dec o n); reflexivity.
Qed.

Lemma read_item e ts n v : item e ts n v -> forall ns p, calm p ->
  exists ns' p', read_tokens e (ns, p) ts = Ok (ns', p') /\ calm p' /\ forall o, ns' o = set ns n v o.
Proof.
  intros H ns p Hp. destruct H as [t n S|t v n k x S A R|q v n k x S R|t vs n zs S N F|q v n z S I].
  - assert (C : classify e t = TOpt n KFlag None) by now apply classify_written.
    exists (set ns n (VBool true)), Idle. cbn [read_tokens]. unfold read_token. rewrite C.
    destruct p; [|destruct Hp|]; repeat split.
  - assert (C : classify e t = TOpt n k None) by now apply classify_written. apply classify_arg in A.
    destruct (reads_convert _ _ _ _ R) as (V & N1 & N2 & N3).
    exists (set ns n x), Idle. cbn [read_tokens]. unfold read_token. rewrite C.
    destruct p; [|destruct Hp|]; (destruct k; try congruence; cbn [bind]; rewrite A, V; repeat split).
  - assert (C : classify e (q ++ "=" ++ v) = TOpt n k (Some v)) by (apply classify_written; exists q; auto).
    destruct (reads_convert _ _ _ _ R) as (V & N1 & N2 & N3).
    exists (set ns n x), Idle. cbn [read_tokens]. unfold read_token. rewrite C.
    destruct p; [|destruct Hp|]; (destruct k; try congruence; cbn [bind]; rewrite V; repeat split).
  - assert (C : classify e t = TOpt n KInts None) by now apply classify_written.
    destruct F as [|v z vs zs [A I] F]; [congruence|]. apply classify_arg in A.
    destruct (read_more _ n _ _ F (set ns n (VInts [z])) [z]) as (ns' & E1 & E2).
    { rewrite set_at. destruct (string_dec n n); congruence. }
    exists ns', (More n (z :: zs)). cbn [read_tokens]. unfold read_token at 1. rewrite C.
    assert (R : read_token e (ns, Want n KInts) v = Ok (set ns n (VInts [z]), More n [z])).
    { unfold read_token. rewrite A, I. reflexivity. }
    destruct p; [|destruct Hp|]; cbn [bind]; rewrite R; cbn [bind]; rewrite E1; (split; [reflexivity|]); (split; [exact Logic.I|]);
      intros o; rewrite E2, !set_at; destruct (string_dec o n); reflexivity.
  - assert (C : classify e (q ++ "=" ++ v) = TOpt n KInts (Some v)) by (apply classify_written; exists q; auto).
    exists (set ns n (VInts [z])), Idle. cbn [read_tokens]. unfold read_token. rewrite C, I.
    destruct p; [|destruct Hp|]; repeat split.
Qed.

Lemma command_read e l its : command e l its -> forall ns p, calm p ->
  exists ns' p', read_tokens e (ns, p) l = Ok (ns', p') /\ calm p' /\ forall o, ns' o = final its o (ns o).
Proof.
  intros H. induction H as [|ts n v l its I H IH]; intros ns p Hp.
  - exists ns, p. repeat split. exact Hp.
  - destruct (read_item _ _ _ _ I ns p Hp) as (ns1 & p1 & E1 & C1 & F1).
    destruct (IH ns1 p1 C1) as (ns2 & p2 & E2 & C2 & F2).
    exists ns2, p2. rewrite read_tokens_app, E1. cbn [bind]. split; [exact E2|]. split; [exact C2|].
    intros o. now rewrite F2, F1, final_set.
Qed.

Lemma read_command e l ns' p' : calm p' ->
  (forall ns, read_tokens e (ns, Idle) l = Ok (ns', p') -> exists its, command e l its /\ forall o, ns' o = final its o (ns o)) /\
  (forall ns n k t, k <> KFlag -> k <> KHelp -> stands_for e t n k -> read_tokens e (ns, Want n k) l = Ok (ns', p') ->
     exists its, command e (t :: l) its /\ forall o, ns' o = final its o (ns o)) /\
  (forall ns n zs, read_tokens e (ns, More n zs) l = Ok (ns', p') ->
     exists vs zs2 l2 its, l = (vs ++ l2)%list /\ Forall2 (fun v z => arglike e v /\ e_int e v = Some z) vs zs2 /\
       command e l2 its /\ forall o, ns' o = final its o (if vs then ns o else set ns n (VInts (zs ++ zs2)) o)).
Proof.
  intros Hp. induction l as [|s l (IHi & IHw & IHm)].
  - split; [|split].
    + intros ns H. injection H as -> <-. exists []. split; [constructor|reflexivity].
    + intros ns n k t _ _ _ H. injection H as -> <-. destruct Hp.
    + intros ns n zs H. injection H as -> <-. exists [], [], [], []. repeat split; constructor.
  - (* an option that is read when nothing is expected *)
    assert (O : forall ns n k x, classify e s = TOpt n k x ->
      (let* st := (match k, x with
          | KHelp, _ => Err SystemExit
          | KFlag, None => Ok (set ns n (VBool true), Idle)
          | KFlag, Some _ => Err SystemExit
          | KInts, Some t => let* z := of_option SystemExit (e_int e t) in Ok (set ns n (VInts [z]), Idle)
          | k, Some t => let* v := of_option SystemExit (convert e k t) in Ok (set ns n v, Idle)
          | k, None => Ok (ns, Want n k)
          end) in read_tokens e st l) = Ok (ns', p') ->
      exists its, command e (s :: l) its /\ forall o, ns' o = final its o (ns o)).
    { intros ns n k x C H. apply classify_written in C. destruct x as [t|].
      - destruct C as (q & -> & S).
        assert (G : forall v, (item e [q ++ "=" ++ t] n v) -> read_tokens e (set ns n v, Idle) l = Ok (ns', p') ->
          exists its, command e ((q ++ "=" ++ t) :: l) its /\ forall o, ns' o = final its o (ns o)).
        { intros v I R. apply IHi in R as (its & R1 & R2). exists ((n, v) :: its). split; [exact (one_more _ _ _ _ _ _ I R1)|].
          intros o. now rewrite R2, final_set. }
        assert (K : k = KInts \/ k <> KInts) by (destruct k; auto; right; discriminate).
        destruct K as [->|K].
        + destruct (e_int e t) as [z|] eqn:I; [|discriminate]. cbn [of_option bind] in H.
          apply (G (VInts [z])); [|exact H]. now apply several_equals.
        + assert (V : exists v, convert e k t = Some v /\ read_tokens e (set ns n v, Idle) l = Ok (ns', p')).
          { destruct k; try congruence; try discriminate; cbn [bind] in H;
              (destruct (convert e _ t) as [v|]; [|discriminate]; cbn [of_option bind] in H; eauto). }
          destruct V as (v & V & R). apply (G v); [|exact R]. eapply equals; [exact S|]. now apply convert_reads.
      - cbn [written] in C.
        assert (K : k = KFlag \/ k = KHelp \/ (k <> KFlag /\ k <> KHelp)) by (destruct k; auto; right; right; split; discriminate).
        destruct K as [->|[->|[K1 K2]]]; [|discriminate|].
        + cbn [bind] in H. apply IHi in H as (its & R1 & R2). exists ((n, VBool true) :: its).
          split; [exact (one_more _ _ _ _ _ _ (flag _ _ _ C) R1)|]. intros o. now rewrite R2, final_set.
        + assert (R : read_tokens e (ns, Want n k) l = Ok (ns', p')) by (destruct k; try congruence; exact H).
          exact (IHw ns n k s K1 K2 C R). }
    split; [|split].
    + intros ns H. cbn [read_tokens] in H. unfold read_token in H. destruct (classify e s) as [|n k x|] eqn:C; [discriminate| |discriminate].
      exact (O ns n k x eq_refl H).
    + intros ns n k t K1 K2 S H. cbn [read_tokens] in H. unfold read_token in H.
      destruct (classify e s) as [|m k' x|] eqn:C; [|discriminate|discriminate]. apply classify_arg in C.
      assert (K : k = KInts \/ k <> KInts) by (destruct k; auto; right; discriminate). destruct K as [->|K].
      * destruct (e_int e s) as [z|] eqn:I; [|discriminate]. cbn [of_option bind] in H.
        apply IHm in H as (vs & zs2 & l2 & its & -> & F & R1 & R2).
        exists ((n, VInts (z :: zs2)) :: its). split.
        { change (t :: s :: vs ++ l2)%list with ((t :: s :: vs) ++ l2)%list. apply one_more; [|exact R1].
          apply several; [exact S|discriminate|]. constructor; auto. }
        intros o. rewrite R2, <- final_set. f_equal. destruct vs as [|v vs].
        { inversion F; subst. reflexivity. }
        rewrite !set_at. destruct (string_dec o n); reflexivity.
      * assert (V : exists v, convert e k s = Some v /\ read_tokens e (set ns n v, Idle) l = Ok (ns', p')).
        { destruct k; try congruence; (destruct (convert e _ s) as [v|]; [|discriminate]; cbn [of_option bind] in H; eauto). }
        destruct V as (v & V & R). apply IHi in R as (its & R1 & R2). exists ((n, v) :: its). split.
        { apply (one_more e [t; s] n v l its); [|exact R1]. eapply value; [exact S|exact C|]. now apply convert_reads. }
        intros o. now rewrite R2, final_set.
    + intros ns n zs H. cbn [read_tokens] in H. unfold read_token in H.
      destruct (classify e s) as [|m k' x|] eqn:C; [| |discriminate].
      * apply classify_arg in C. destruct (e_int e s) as [z|] eqn:I; [|discriminate]. cbn [of_option bind] in H.
        apply IHm in H as (vs & zs2 & l2 & its & -> & F & R1 & R2).
        exists (s :: vs), (z :: zs2), l2, its. split; [reflexivity|]. split; [constructor; auto|]. split; [exact R1|].
        intros o. rewrite R2. f_equal. destruct vs as [|v vs].
        { inversion F; subst. reflexivity. }
        rewrite !set_at, <- app_assoc. destruct (string_dec o n); reflexivity.
      * apply (O ns m k' x eq_refl) in H as (its & R1 & R2). exists [], [], (s :: l), its. repeat split; [constructor|exact R1|exact R2].
Qed.

Lemma default_at e o k d : In (o, (k, d)) (options e) -> default e o = d.
Proof.
  intros H. unfold default. destruct (find _ _) as [[m [k' d']]|] eqn:E.
  - apply find_some in E as [E1 E2]. apply String.eqb_eq in E2. cbn [fst] in E2. subst m.
    assert (X := nodup_fun _ _ _ _ (names_nodup e) H E1). congruence.
  - apply (find_none _ _ E) in H. cbn [fst] in H. rewrite String.eqb_refl in H. discriminate.
Qed.

Lemma parse_sound e l ns : parse_args e l = Ok ns -> exists its, command e l its /\ says e its ns.
Proof.
  unfold parse_args. destruct (read_tokens _ _ _) as [[ns' p]|] eqn:E; [|discriminate]. cbn [bind].
  intros H. assert (P : calm p /\ ns' = ns) by (destruct p; [|discriminate|]; injection H; split; auto; exact I).
  destruct P as [P ->]. destruct (proj1 (read_command e l ns p P) _ E) as (its & H1 & H2).
  exists its. split; [exact H1|]. intros o k d Ho. now rewrite H2, (default_at _ _ _ _ Ho).
Qed.
Lemma parse_complete e l its : command e l its -> exists ns, parse_args e l = Ok ns /\ says e its ns.
Proof.
  intros H. destruct (command_read _ _ _ H (default e) Idle I) as (ns & p & E & P & F). exists ns. split.
  - unfold parse_args. rewrite E. cbn [bind]. destruct p; [reflexivity|destruct P|reflexivity].
  - intros o k d Ho. now rewrite F, (default_at _ _ _ _ Ho).
Qed.
Lemma parse_err e l x : parse_args e l = Err x -> x = SystemExit.
Proof.
  assert (B : forall A C (o : option A) (f : A -> C) y, (let* a := of_option SystemExit o in Ok (f a)) = Err y -> y = SystemExit).
  { intros A C [a|] f y H; cbn in H; congruence. }
  assert (R : forall l st y, read_tokens e st l = Err y -> y = SystemExit).
  { clear - B. induction l as [|s l IH]; intros st y; cbn [read_tokens]; [discriminate|].
    destruct (read_token e st s) as [st'|z] eqn:E; cbn [bind]; [apply IH|]. intros H. injection H as ->.
    unfold read_token in E. destruct st as [ns p]. destruct (classify e s) as [|n k x|]; [| |congruence].
    - destruct p as [|n k|n zs]; [congruence| |]; try destruct k; eapply B; exact E.
    - destruct p as [|n' k'|n' zs]; [|congruence|]; (destruct k, x as [t|]; try congruence; eapply B; exact E). }
  unfold parse_args. destruct (read_tokens _ _ _) as [[ns' p]|y] eqn:E; cbn [bind].
  - destruct p; [discriminate| |discriminate]. congruence.
  - intros H. injection H as <-. eapply R; eauto.
Qed.
