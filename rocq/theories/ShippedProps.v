(** The shipped commands start, and where their results go. *)
From Coq Require Import String Ascii List ZArith QArith Bool Lia Decimal DecimalString.
From Verif Require Import Base LaunchModel LaunchProofs LaunchProps CommandModel CommandSpec CommandProofs CommandProps ShippedModel ShippedSpec.
Import ListNotations.
Open Scope string_scope.

(** ** Reading a command *)
Lemma cons_value e t v n k x l its : exact e t = Some (n, k) -> arglike e v -> reads e k v x -> command e l its ->
  command e (t :: v :: l) ((n, x) :: its).
Proof.
  intros E A R C. apply exact_some in E as [N ->]. apply (one_more e ["--" ++ n; v]); [|exact C].
  eapply value; [split; [exact N|now left]|exact A|exact R].
Qed.
Lemma cons_flag e t n l its : exact e t = Some (n, KFlag) -> command e l its -> command e (t :: l) ((n, VBool true) :: its).
Proof.
  intros E C. apply exact_some in E as [N ->]. apply (one_more e ["--" ++ n]); [|exact C]. apply flag. split; [exact N|now left].
Qed.
Lemma cons_equals e s p v n k x l its : split_at "=" s = Some (p, v) -> exact e p = Some (n, k) -> reads e k v x -> command e l its ->
  command e (s :: l) ((n, x) :: its).
Proof.
  intros P E R C. apply split_some in P as [-> _]. apply exact_some in E as [N ->].
  apply (one_more e [("--" ++ n) ++ "=" ++ v]); [|exact C]. eapply equals; [split; [exact N|now left]|exact R].
Qed.
Lemma int_text e v i : decimal e -> NilEmpty.int_of_string v = Some i -> NilEmpty.string_of_int (Z.to_int (Z.of_int i)) = v ->
  e_int e v = Some (Z.of_int i).
Proof. intros D _ H. rewrite <- H at 1. apply D. Qed.

Ltac read_it D F :=
  first [ eassumption
        | lazymatch goal with
          | |- reads _ KInt _ _ => apply read_int; first [eassumption | eapply (int_text _ _ _ D); [vm_compute; reflexivity|vm_compute; reflexivity]]
          | |- reads _ KFloat _ _ => apply read_float, F; cbn [In]; tauto
          | |- reads _ KStr _ _ => apply read_str
          | |- reads _ (KChoice _) _ _ => apply read_choice; cbn [In]; tauto
          end ].
Ltac exact_it := lazymatch goal with |- exact ?e ?t = _ =>
  let v := eval vm_compute in (exact (mkEnv (fun _ => None) (fun _ => None) "" "") t) in
  let E := fresh in assert (E : exact e t = v) by (vm_compute; reflexivity); exact E end.
Ltac read_command D F :=
  repeat first
    [ apply no_more
    | eapply cons_flag; [exact_it|]
    | eapply cons_equals; [vm_compute; reflexivity|exact_it|read_it D F|]
    | eapply cons_value; [exact_it|first [eassumption|apply plain_text; discriminate]|read_it D F|] ].

(** ** What a run is started with *)
Definition argsx (e : env) (its : list (string * val)) : args := args_of (fun o => final its o (default e o)).
Lemma args_says e its ns : says e its ns -> args_of ns = argsx e its.
Proof.
  intros S.
  assert (X : forall o, existsb (String.eqb o) (map fst (options e)) = true -> ns o = final its o (default e o)).
  { intros o H. apply existsb_exists in H as (o' & H & E). apply String.eqb_eq in E as <-.
    apply in_map_iff in H as ([o' [k d]] & <- & H). cbn [fst]. now rewrite (S _ _ _ H), (default_at _ _ _ _ H). }
  unfold argsx, args_of.
  repeat match goal with |- context [ns ?o] => rewrite (X o) by (vm_compute; reflexivity) end. reflexivity.
Qed.

(** ** Folders *)
Lemma inside_stem p q : inside p q (stem p ++ q).
Proof.
  unfold stem. destruct (String.eqb_spec p "") as [->|N]; [apply in_nothing|].
  cbn [orb]. destruct (ends_with_slash p) eqn:E.
  - apply slash_end in E as (r & ->). rewrite app_assoc_s. apply in_slash.
  - rewrite app_assoc_s. apply in_folder; [exact N|]. intros r ->.
    assert (X : ends_with_slash (r ++ "/") = true) by (apply slash_end; eauto). congruence.
Qed.
Lemma inside_is p q r : inside p q r -> r = stem p ++ q.
Proof.
  intros H. unfold stem. destruct H as [q|p q|p q N1 N2]; [reflexivity| |].
  - assert (X : ends_with_slash (p ++ "/") = true) by (apply slash_end; eauto). rewrite X, orb_true_r. symmetry. apply app_assoc_s.
  - apply String.eqb_neq in N1. rewrite N1. cbn [orb].
    assert (X : ends_with_slash p = false) by (apply not_true_iff_false; rewrite slash_end; intros (q' & E); exact (N2 _ E)).
    rewrite X. symmetry. apply app_assoc_s.
Qed.
Lemma stem_top p top : no_slash top -> top <> "" -> stem (stem p ++ top) = stem p ++ top ++ "/".
Proof.
  intros S N. unfold stem at 1. rewrite ends_no_slash by assumption. rewrite orb_false_r.
  destruct (String.eqb_spec (stem p ++ top) "") as [E|_]; [destruct (stem p); [contradiction|discriminate]|]. apply app_assoc_s.
Qed.
Lemma folder_inside root top a : no_slash top -> (exists c r, top = String c r /\ c <> "/"%char) ->
  (a_result a = root /\ top = a_dataset a ++ "-" ++ a_exp a) \/
  (inside root top (a_result a) /\ (exists c r, a_dataset a = String c r /\ c <> "/"%char)) ->
  exists rest, inside root (top ++ "/" ++ rest) (result_folder a).
Proof.
  intros S (c & r & Et & Nc) H. rewrite folder_form. set (tl := "seed-" ++ _).
  assert (N : top <> "") by (rewrite Et; discriminate). destruct H as [[H1 H2]|[H1 (c' & r' & Ed & Nd)]].
  - exists tl. assert (X : folder_stem a ++ tl = stem root ++ top ++ "/" ++ tl).
    { unfold folder_stem. rewrite H1, <- H2, Et, join_stem by exact Nc. rewrite <- Et, (stem_top root top) by assumption.
      now rewrite !app_assoc_s. }
    rewrite X. apply inside_stem.
  - exists (stem (path_join "" (a_dataset a ++ "-" ++ a_exp a)) ++ tl).
    assert (X : folder_stem a ++ tl = stem root ++ top ++ "/" ++ stem (path_join "" (a_dataset a ++ "-" ++ a_exp a)) ++ tl).
    { unfold folder_stem. apply inside_is in H1. rewrite H1, Ed. cbn [append]. rewrite !join_stem by exact Nd.
      rewrite (stem_top root top) by assumption. change (stem "") with "". cbn [append].
      set (y := String c' _). assert (Y : y <> "") by discriminate. clearbody y.
      assert (Z : forall q, stem (q ++ y) = q ++ stem y).
      { intros q. unfold stem. assert (Q : ends_with_slash (q ++ y) = ends_with_slash y).
        { apply eq_true_iff_eq. rewrite !slash_end. clear - Y. split.
          - revert y Y. induction q as [|b q IH]; intros y Y (z & E); [eauto|]. cbn in E.
            destruct z as [|b' z]; cbn in E; injection E as -> E.
            + destruct q; [cbn in E; subst y; congruence|discriminate].
            + eauto.
          - intros (z & ->). exists (q ++ z). now rewrite app_assoc_s. }
        rewrite Q. assert (E1 : (y =? "") = false) by now apply String.eqb_neq.
        assert (E2 : (q ++ y =? "") = false) by (apply String.eqb_neq; destruct q; [exact Y|discriminate]).
        rewrite E1, E2. cbn [orb]. destruct (ends_with_slash y); [reflexivity|apply app_assoc_s]. }
      rewrite Z, !app_assoc_s. reflexivity. }
    rewrite X. apply inside_stem.
Qed.

(** ** The three scripts *)
Definition good (e : env) (w : world) (cls top : string) (ns : space) : Prop :=
  (exists s, run_exp w (args_of ns) = Ok s /\ n_class (s_net s) = cls) /\
  exists rest, inside (e_results e) (top ++ "/" ++ rest) (result_folder (args_of ns)).
Definition fine (e : env) (w : world) (cls top : string) (a : args) : Prop :=
  (exists s, run_exp w a = Ok s /\ n_class (s_net s) = cls) /\ a_result a = e_results e /\ top = a_dataset a ++ "-" ++ a_exp a.
Definition proper (top : string) : Prop := no_slash top /\ exists c r, top = String c r /\ c <> "/"%char.
Lemma fine_good e w cls top its ns : proper top -> says e its ns -> fine e w cls top (argsx e its) -> good e w cls top ns.
Proof.
  intros [P1 P2] S (F1 & F2 & F3). unfold good. rewrite (args_says _ _ _ S). split; [exact F1|]. apply folder_inside; auto.
Qed.
Lemma forall_nth {A} (P : A -> Prop) l : (forall i x, nth_error l i = Some x -> P x) -> Forall P l.
Proof. intros H. apply Forall_forall. intros x Hx. apply In_nth_error in Hx as (i & Hi). eauto. Qed.

Lemma mol_good e w l its first last cls top :
  decimal e -> command e l its -> proper top ->
  among "--seed" l = false -> among "--fold" l = false ->
  final its "start_seed" (VInt 0) = VInt first -> final its "stop_seed" (VInt 9) = VInt last -> (first <= last)%Z ->
  final its "folds" VNone = VNone ->
  (forall s, fine e w cls top (argsx e (its ++ [("seed", VInt s)]))) ->
  exists nss, mol_script e l = Ok nss /\ List.length nss = Z.to_nat (last + 1 - first) /\ Forall (good e w cls top) nss.
Proof.
  intros D C P N1 N2 G1 G2 L G3 H.
  destruct (C68_mol e l its first last D C) as (nss & E & Ln & F).
  - rewrite <- among_In. congruence.
  - rewrite <- among_In. congruence.
  - exists KInt, (VInt 0). split; [isin|now symmetry].
  - exists KInt, (VInt 9). split; [isin|now symmetry].
  - exact L.
  - exists KInt, VNone. split; [isin|now symmetry].
  - exists nss. split; [exact E|]. split; [exact Ln|]. apply forall_nth. intros i ns Hi.
    eapply fine_good; [exact P|exact (F i ns Hi)|apply H].
Qed.
Lemma csl_good e w l its first last k cls top :
  decimal e -> command e l its -> proper top ->
  among "--seed" l = false -> among "--fold" l = false ->
  final its "start_seed" (VInt 0) = VInt first -> final its "stop_seed" (VInt 9) = VInt last -> (first <= last)%Z ->
  final its "folds" VNone = VInt k -> final its "dataset" (VStr "PROTEINS") = VStr "CSL" ->
  (forall s f, (f < Z.to_nat k)%nat -> fine e w cls top (argsx e (its ++ [("seed", VInt s); ("fold", VInt (Z.of_nat f))]))) ->
  exists nss, mol_script e l = Ok nss /\ List.length nss = (Z.to_nat (last + 1 - first) * Z.to_nat k)%nat /\
    Forall (good e w cls top) nss.
Proof.
  intros D C P N1 N2 G1 G2 L G3 G4 H.
  destruct (C68_mol_folds e l its first last k D C) as (nss & E & Ln & F).
  - rewrite <- among_In. congruence.
  - rewrite <- among_In. congruence.
  - exists KInt, (VInt 0). split; [isin|now symmetry].
  - exists KInt, (VInt 9). split; [isin|now symmetry].
  - exact L.
  - exists KInt, VNone. split; [isin|now symmetry].
  - exists KStr, (VStr "PROTEINS"). split; [isin|now symmetry].
  - exists nss. split; [exact E|]. split; [exact Ln|]. apply forall_nth. intros i ns Hi.
    eapply fine_good; [exact P|exact (F i ns Hi)|]. apply H. apply Nat.mod_upper_bound. intros K.
    assert (X : nth_error nss i <> None) by congruence. apply nth_error_Some in X. rewrite Ln, K in X. lia.
Qed.
Lemma tu_good e w l its cls top :
  decimal e -> command e l its -> proper top -> among "fold" l = false ->
  (forall i, In i [0; 1; 2; 3; 4; 5; 6; 7; 8; 9]%Z -> fine e w cls top (argsx e (its ++ [("fold", VInt i)]))) ->
  exists nss, tu_runs e l = Ok nss /\ List.length nss = 10%nat /\ Forall (good e w cls top) nss.
Proof.
  intros D C P N H. destruct (C68_tu e l its D C) as (nss & E & F); [rewrite <- among_In; congruence|].
  exists nss. split; [exact E|]. apply forall2_nth in F as [F1 F2]. split; [now rewrite <- F1|].
  apply forall_nth. intros i ns Hi. destruct (F2 i ns Hi) as (z & Hz & S).
  eapply fine_good; [exact P|exact S|]. apply H. eapply nth_error_In; eauto.
Qed.

Lemma sr_good e w l its first last size cls xn ring :
  let top := "SR-" ++ xn ++ (if ring : bool then "-" ++ numeral size else "") in
  decimal e -> command e l its -> (forall r, e_results e <> "-" ++ r) -> no_slash xn ->
  among "--seed" l = false -> among "--dataset" l = false -> among "--readout_dims" l = false -> among "--max_dim" l = false ->
  among "--max_ring_size" l = ring -> (ring = true -> final its "max_ring_size" VNone = VInt size) ->
  final its "start_seed" (VInt 0) = VInt first -> final its "stop_seed" (VInt 9) = VInt last ->
  final its "exp_name" (VStr (e_now e)) = VStr xn -> final its "result_folder" (VStr (e_results e)) = VStr (e_results e) ->
  final its "max_dim" (VInt 2) = VInt 2 ->
  (forall folder family dim s, In (family, dim) srg ->
     let t := if ring then 2%Z else dim in
     let a := argsx e (its ++ [("result_folder", VStr folder); ("dataset", VStr family); ("seed", VInt s); ("max_dim", VInt t);
                               ("readout_dims", VInts (upto t))]) in
     (exists s, run_exp w a = Ok s /\ n_class (s_net s) = cls) /\ a_result a = folder /\ a_dataset a = family) ->
  exists nss, sr_script e l = Ok nss /\ List.length nss = (9 * Z.to_nat (last + 1 - first))%nat /\ Forall (good e w cls top) nss.
Proof.
  intros top D C R X N1 N2 N3 N4 N5 G0 G1 G2 G3 G4 G5 H. set (folder := stem (e_results e) ++ top).
  assert (I : inside (e_results e) top folder) by apply inside_stem.
  assert (B : (if in_dec string_dec "--max_ring_size" l then "-" ++ NilEmpty.string_of_int (Z.to_int size) else "") =
              (if ring then "-" ++ numeral size else "")).
  { destruct (in_dec string_dec "--max_ring_size" l) as [J|J]; rewrite <- among_In, N5 in J; [now rewrite J|].
    destruct ring; [congruence|reflexivity]. }
  destruct (C68_sr e l its first last xn (e_results e) size 2 folder D C) as (nss & E & L & F).
  - rewrite <- among_In. congruence.
  - rewrite <- among_In. congruence.
  - rewrite <- among_In. congruence.
  - exists KInt, (VInt 0). split; [isin|now symmetry].
  - exists KInt, (VInt 9). split; [isin|now symmetry].
  - exists KStr, (VStr (e_now e)). split; [isin|now symmetry].
  - exists KStr, (VStr (e_results e)). split; [isin|now symmetry].
  - rewrite <- among_In, N5. intros J. exists KInt, VNone. split; [isin|symmetry; auto].
  - exists KInt, (VInt 2). split; [isin|now symmetry].
  - lia.
  - rewrite <- !among_In. intros [J _]. congruence.
  - rewrite B. exact I.
  - apply plain_text. intros r Er. unfold folder, stem in Er. destruct (e_results e) as [|c p] eqn:Q; [discriminate|].
    apply (R p). destruct (_ || _)%bool; cbn in Er; injection Er as -> _; reflexivity.
  - exists nss. split; [exact E|]. split; [exact L|]. apply forall_nth. intros i ns Hi.
    destruct (F i ns Hi) as (family & dim & t & Hf & T1 & T2 & T3 & S). apply nth_error_In in Hf.
    assert (Et : t = if ring then 2%Z else dim).
    { destruct ring; [apply T2; now apply among_In|]. apply T3; rewrite <- among_In; congruence. }
    destruct (H folder family dim (first + Z.of_nat (i mod Z.to_nat (last + 1 - first)))%Z Hf) as (H1 & H2 & H3).
    rewrite <- Et in H1, H2, H3. unfold good. rewrite (args_says _ _ _ S). split; [exact H1|]. apply folder_inside.
    + unfold top. apply (no_slash_app "SR-"); [repeat split; discriminate|]. apply no_slash_app; [exact X|].
      destruct ring; [|exact Logic.I]. apply (no_slash_app "-"); [repeat split; discriminate|]. apply show_no_slash.
    + do 2 eexists. split; [reflexivity|discriminate].
    + right. rewrite H2, H3. split; [exact I|]. assert (Y : exists r, family = "s" ++ r).
      { unfold srg in Hf. repeat (destruct Hf as [Hf|Hf]; [injection Hf as <- _; eexists; reflexivity|]). destruct Hf. }
      destruct Y as (r & ->). do 2 eexists. split; [reflexivity|discriminate].
Qed.

(** ** C69 *)
Lemma ex_len {A} (P Q : list A -> Prop) n m :
  (exists l, P l /\ List.length l = n /\ Q l) -> n = m -> exists l, P l /\ List.length l = m /\ Q l.
Proof. now intros H <-. Qed.
Lemma arg_not e p o n : arglike e p -> exact e ("--" ++ o) = Some n -> p <> "--" ++ o.
Proof.
  intros A E ->. apply classify_arg in A. destruct n as [n k].
  assert (X : classify e ("--" ++ o) = TOpt n k None) by (apply classify_written; apply exact_some in E as [E1 E2]; split; [exact E1|now left]).
  congruence.
Qed.
Ltac lacks_it := first [reflexivity
  | apply not_true_iff_false; rewrite among_In; let H := fresh in intros H; cbn [In] in H;
    repeat (destruct H as [H|H]; [first [discriminate H
      | revert H; lazymatch goal with |- _ = String "-" (String "-" ?o) -> _ => eapply (arg_not _ _ o); [eassumption|exact_it] end]|]); exact H].
Ltac run_it :=
  lazymatch goal with |- exists t, ?r = Ok t /\ _ =>
    let v := eval lazy -[Z.ltb w_flow w_ogb w_width w_gwidth w_tasks w_sr_dim w_pep] in r in
    let E := fresh in assert (E : r = v) by (lazy -[Z.ltb w_flow w_ogb w_width w_gwidth w_tasks w_sr_dim w_pep]; reflexivity); rewrite E; clear E end;
  repeat match goal with H : _ = Ok tt |- _ => rewrite H | H : _ = true |- _ => rewrite H end;
  eexists; split; reflexivity.
Ltac fine_it := split; [run_it|split; reflexivity].
Ltac proper_it := split; [cbn [no_slash]; repeat (split; [discriminate|]); exact I|do 2 eexists; split; [reflexivity|discriminate]].
Ltac mol_it D F :=
  eapply ex_len; [eapply (mol_good _ _ _ _ _ _ _ _ D);
    [read_command D F|proper_it|reflexivity|reflexivity|reflexivity|reflexivity|vm_compute; discriminate|reflexivity|intros s; fine_it]|reflexivity].
Ltac csl_it D F :=
  eapply ex_len; [eapply (csl_good _ _ _ _ _ _ _ _ _ D);
    [read_command D F|proper_it|reflexivity|reflexivity|reflexivity|reflexivity|vm_compute; discriminate|reflexivity|reflexivity|
     intros s f Hf; change (f < 5)%nat in Hf; do 5 (destruct f as [|f]; [fine_it|]); lia]|reflexivity].
Ltac tu_it D F :=
  eapply ex_len; [eapply (tu_good _ _ _ _ _ _ D);
    [read_command D F|proper_it|reflexivity|
     intros i Hi; cbn [In] in Hi; repeat (destruct Hi as [<-|Hi]; [fine_it|]); destruct Hi]|reflexivity].
Ltac sr_it D F Hr b name sz :=
  eapply ex_len; [eapply (sr_good _ _ _ _ _ _ sz _ name b D);
    [read_command D F|exact Hr|cbn [no_slash]; repeat (split; [discriminate|]); exact I
    |lacks_it|lacks_it|lacks_it|lacks_it|lacks_it|first [discriminate|intros; reflexivity]
    |reflexivity|reflexivity|reflexivity|reflexivity|reflexivity
    |intros folder family dim s Hs; unfold srg in Hs;
     repeat (destruct Hs as [Hs|Hs]; [injection Hs as <- <-; split; [run_it|split; reflexivity]|]); destruct Hs]|reflexivity].

Definition purpose_at (size : Z) (file : string) : option (nat * string * string) :=
  match find (fun q => fst (fst (fst q)) =? file) (purpose size) with
  | Some (_, runs, cls, top) => Some (runs, cls, top) | None => None end.
Lemma purpose_found size file runs cls top : In (file, runs, cls, top) (purpose size) -> purpose_at size file = Some (runs, cls, top).
Proof.
  intros H. assert (N : NoDup (map (fun q => fst (fst (fst q))) (purpose size))).
  { set (l := map _ _). assert (E : nodup string_dec l = l) by (vm_compute; reflexivity). rewrite <- E. apply NoDup_nodup. }
  unfold purpose_at. revert H N. generalize (purpose size). clear size. intros l H N.
  induction l as [|[[[f r] c] t] l IH]; [destruct H|]. cbn [find fst map] in *. inversion N as [|? ? N1 N2 Q]; subst.
  destruct (String.eqb_spec f file) as [->|X].
  - destruct H as [H|H]; [now injection H as -> -> ->|]. exfalso. apply N1.
    change file with ((fun q : string * nat * string * string => fst (fst (fst q))) (file, runs, cls, top)). now apply in_map.
  - destruct H as [H|H]; [congruence|auto].
Qed.

Lemma all_shipped e w : decimal e -> fractions e -> (forall r, e_results e <> "-" ++ r) ->
  w_flow w = Ok tt -> w_ogb w "ogbg-molhiv" = true ->
  Forall (fun q => let '(file, sc, k, words) := q in forall p size, suits e k p size ->
    match purpose_at size file with
    | Some (runs, cls, top) => exists nss, start e sc (words p) = Ok nss /\ List.length nss = runs /\ Forall (good e w cls top) nss
    | None => False end) shipped.
Proof.
  intros D F Hr Hflow Hogb. unfold shipped.
  repeat (apply Forall_cons;
    [intros p size Hs; lazy [purpose_at find purpose fst snd String.eqb Ascii.eqb Bool.eqb]; cbn [start suits] in *|]);
    [..|apply Forall_nil].
  1-2,4-8,10-11,15-20: mol_it D F.
  1,3,8: tu_it D F.
  1: csl_it D F.
  1: destruct Hs as (A & I & S); apply Z.ltb_lt in S; sr_it D F Hr true "cwn-sr-base" size.
  1: destruct Hs as (A & I & S); apply Z.ltb_lt in S; sr_it D F Hr true "cwn-sr" size.
  1-2: cbn [In] in Hs; repeat (destruct Hs as [<-|Hs]; [mol_it D F|]); destruct Hs.
  - clear Hs. sr_it D F Hr false "mpsn-sr-base" 0%Z.
  - clear Hs. sr_it D F Hr false "mpsn-sr" 0%Z.
Qed.

Theorem C69_shipped e w p size file sc k words runs cls top :
  decimal e -> fractions e -> (forall r, e_results e <> "-" ++ r) ->
  w_flow w = Ok tt -> w_ogb w "ogbg-molhiv" = true ->
  In (file, sc, k, words) shipped -> suits e k p size -> In (file, runs, cls, top) (purpose size) ->
  exists nss, start e sc (words p) = Ok nss /\ List.length nss = runs /\
    Forall (fun ns =>
      (exists s, run_exp w (args_of ns) = Ok s /\ n_class (s_net s) = cls) /\
      exists rest, inside (e_results e) (top ++ "/" ++ rest) (result_folder (args_of ns))) nss.
Proof.
  intros D F Hr Hflow Hogb Hin Hs Hp. pose proof (all_shipped e w D F Hr Hflow Hogb) as H.
  rewrite Forall_forall in H. specialize (H _ Hin p size Hs). cbn beta iota in H. rewrite (purpose_found _ _ _ _ _ Hp) in H.
  exact H.
Qed.

(** ** No run overwrites another *)
Definition key (t : string) : list ascii := filter (fun c => negb (is_digit c || Ascii.eqb c "-")) (letters t).
Lemma key_app s t : key (s ++ t) = (key s ++ key t)%list.
Proof. unfold key. now rewrite letters_app, filter_app. Qed.
Lemma key_numeral z : key (numeral z) = [].
Proof.
  assert (U : forall u, key (NilEmpty.string_of_uint u) = []).
  { intros u. unfold key. pose proof (uint_digits u) as H. unfold digits in H. induction H as [|c l H _ IH]; [reflexivity|].
    cbn [filter]. apply digit_iff in H. rewrite H. exact IH. }
  unfold numeral. destruct (Z.to_int z) as [u|u]; cbn [NilEmpty.string_of_int]; [apply U|]. apply (U u).
Qed.
Definition same_key (a b : list ascii) : bool := if list_eq_dec ascii_dec a b then true else false.
Definition zinc_pair (f : string) : bool := (f =? "cin++-zinc-small.sh") || (f =? "cin++-zinc.sh").
Lemma tops_differ s1 s2 f1 f2 r1 r2 c1 c2 t :
  In (f1, r1, c1, t) (purpose s1) -> In (f2, r2, c2, t) (purpose s2) ->
  f1 = f2 \/ (In f1 ["cin++-zinc-small.sh"; "cin++-zinc.sh"] /\ In f2 ["cin++-zinc-small.sh"; "cin++-zinc.sh"]).
Proof.
  set (tab := fun s => map (fun q : string * nat * string * string => (fst (fst (fst q)), key (snd q))) (purpose s)).
  assert (T : forall s, tab s = map (fun q => (fst q, key (snd q)))
    (map (fun q => (fst (fst (fst q)), snd q)) (purpose 0))).
  { intros s. rewrite map_map. unfold tab. cbn [fst snd]. unfold purpose. cbn [map fst snd].
    rewrite !key_app, !key_numeral. reflexivity. }
  set (K := tab 0%Z).
  assert (C : forallb (fun x => forallb (fun y => implb (same_key (snd x) (snd y))
                ((fst x =? fst y) || (zinc_pair (fst x) && zinc_pair (fst y)))) K) K = true) by (vm_compute; reflexivity).
  intros H1 H2.
  assert (J : forall s f r c, In (f, r, c, t) (purpose s) -> In (f, key t) K).
  { intros s f r c H. unfold K. rewrite (T 0%Z), <- (T s). exact (in_map _ _ _ H). }
  apply J in H1, H2. rewrite forallb_forall in C. specialize (C _ H1). rewrite forallb_forall in C. specialize (C _ H2).
  cbn [fst snd] in C. unfold same_key in C. destruct (list_eq_dec ascii_dec (key t) (key t)) as [_|X]; [|congruence].
  cbn [implb] in C. unfold zinc_pair in C. rewrite orb_true_iff, andb_true_iff, !orb_true_iff, !String.eqb_eq in C. cbn [In].
  destruct C as [C|[C1 C2]]; [now left|right]. split; [destruct C1; auto|destruct C2; auto].
Qed.
Lemma purpose_of size f sc k words : In (f, sc, k, words) shipped -> exists r c t, In (f, r, c, t) (purpose size).
Proof.
  intros H.
  assert (X : In f (map (fun q : string * nat * string * string => fst (fst (fst q))) (purpose size))).
  { apply (in_map (fun q : string * script * parameter * (string -> list string) => fst (fst (fst q)))) in H. exact H. }
  apply in_map_iff in X as ([[[f' r] c] t] & <- & X). eauto.
Qed.
Lemma tops_proper size f r c t : In (f, r, c, t) (purpose size) -> no_slash t.
Proof.
  intros H. assert (N : no_slash (numeral size)) by apply show_no_slash.
  unfold purpose in H. repeat (destruct H as [H|H]; [injection H as _ _ _ <-; cbn [append no_slash];
    repeat (split; [discriminate|]); first [exact I|exact N]|]). destruct H.
Qed.

Theorem C69_folders e w f1 sc1 k1 words1 p1 s1 nss1 ns1 f2 sc2 k2 words2 p2 s2 nss2 ns2 :
  decimal e -> fractions e -> (forall r, e_results e <> "-" ++ r) ->
  w_flow w = Ok tt -> w_ogb w "ogbg-molhiv" = true ->
  In (f1, sc1, k1, words1) shipped -> suits e k1 p1 s1 -> start e sc1 (words1 p1) = Ok nss1 -> In ns1 nss1 ->
  In (f2, sc2, k2, words2) shipped -> suits e k2 p2 s2 -> start e sc2 (words2 p2) = Ok nss2 -> In ns2 nss2 ->
  result_folder (args_of ns1) = result_folder (args_of ns2) ->
  f1 = f2 \/ (In f1 ["cin++-zinc-small.sh"; "cin++-zinc.sh"] /\ In f2 ["cin++-zinc-small.sh"; "cin++-zinc.sh"]).
Proof.
  intros D F Hr Hf Ho I1 S1 R1 J1 I2 S2 R2 J2 E.
  destruct (purpose_of s1 _ _ _ _ I1) as (r1 & c1 & t1 & P1). destruct (purpose_of s2 _ _ _ _ I2) as (r2 & c2 & t2 & P2).
  destruct (C69_shipped e w p1 s1 f1 sc1 k1 words1 r1 c1 t1 D F Hr Hf Ho I1 S1 P1) as (n1 & Q1 & _ & G1).
  destruct (C69_shipped e w p2 s2 f2 sc2 k2 words2 r2 c2 t2 D F Hr Hf Ho I2 S2 P2) as (n2 & Q2 & _ & G2).
  rewrite R1 in Q1. injection Q1 as <-. rewrite R2 in Q2. injection Q2 as <-.
  rewrite Forall_forall in G1, G2. destruct (G1 _ J1) as [_ (x1 & H1)]. destruct (G2 _ J2) as [_ (x2 & H2)].
  apply inside_is in H1, H2. rewrite H1, H2 in E. apply app_inj in E.
  apply cut in E; [|eapply tops_proper; eauto|eapply tops_proper; eauto|right; eexists; reflexivity|right; eexists; reflexivity].
  destruct E as [-> _]. eapply tops_differ; eauto.
Qed.

(** The small and the large network on ZINC have one name: every run of one command overwrites
    a run of the other. *)
Definition words_of (f : string) : list string :=
  match find (fun s => fst (fst (fst s)) =? f) shipped with Some s => snd s "" | None => [] end.
Theorem C69_folders_refuted : exists nss1 nss2,
  mol_script here (words_of "cin++-zinc-small.sh") = Ok nss1 /\ mol_script here (words_of "cin++-zinc.sh") = Ok nss2 /\
  map (fun ns => result_folder (args_of ns)) nss1 = map (fun ns => result_folder (args_of ns)) nss2 /\
  Forall (fun ns => ns "emb_dim" = VInt 48) nss1 /\ Forall (fun ns => ns "emb_dim" = VInt 128) nss2.
Proof.
  assert (X : match mol_script here (words_of "cin++-zinc-small.sh"), mol_script here (words_of "cin++-zinc.sh") with
    | Ok n1, Ok n2 => map (fun ns => result_folder (args_of ns)) n1 = map (fun ns => result_folder (args_of ns)) n2 /\
        map (fun ns => ns "emb_dim") n1 = repeat (VInt 48) 10 /\ map (fun ns => ns "emb_dim") n2 = repeat (VInt 128) 10
    | _, _ => False end) by (vm_compute; auto).
  destruct (mol_script here (words_of "cin++-zinc-small.sh")) as [n1|]; [|destruct X].
  destruct (mol_script here (words_of "cin++-zinc.sh")) as [n2|]; [|destruct X]. destruct X as (X1 & X2 & X3).
  assert (Y : forall v k l, map (fun ns : space => ns "emb_dim") l = repeat v k -> Forall (fun ns => ns "emb_dim" = v) l).
  { intros v k l. revert k. induction l as [|a l IH]; intros [|k] H; try discriminate; constructor; cbn in H; injection H; eauto. }
  exists n1, n2. repeat split; eauto.
Qed.

(** The hypotheses are met. *)
Example here_suits : fractions here /\ (forall r, e_results here <> "-" ++ r) /\
  suits here RingSize "6" 6 /\ suits here Nonlinearity "tanh" 0.
Proof.
  split; [|split; [discriminate|split]].
  - intros t q H. cbn [In] in H. repeat (destruct H as [H|H]; [injection H as <- <-; reflexivity|]). destruct H.
  - split; [apply plain_text; discriminate|]. split; [reflexivity|lia].
  - cbn. tauto.
Qed.
(** Without its parameter the command of exp/scripts/cwn-sr.sh is no command. *)
Example no_parameter : sr_script here ["--max_ring_size"; "--init_method"; "sum"] = Err SystemExit.
Proof. vm_compute. reflexivity. Qed.

Print Assumptions C69_shipped.
Print Assumptions C69_folders.
Print Assumptions C69_folders_refuted.
