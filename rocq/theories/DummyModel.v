(** Concrete complexes used by the examples. *)
From Coq Require Import List Arith ZArith Lia Bool.
From Verif Require Import Base ComplexModel BatchSpec.
Import ListNotations.

Definition cols (a b : list nat) : list (nat * nat) := combine a b.

(** data/dummy_complexes.py:45-104  the house complex (after the Complex constructor filled in the
    cell counts), features widened to integers. *)
Definition house_v : cochain Z :=
  mkCochain 0 (Some [1;2;3;4;5]%Z)
    (Some (cols [0;1;0;3;1;2;2;3;2;4;3;4] [1;0;3;0;2;1;3;2;4;2;4;3])) None
    None (Some [0;0;3;3;1;1;2;2;5;5;4;4]) None None None (Some [0;0;0;0;0]%Z) None None
    (Some (Some 6)) None.
Definition house_e : cochain Z :=
  mkCochain 1 (Some [1;2;3;4;5;6]%Z)
    (Some (cols [2;4;2;5;4;5] [4;2;5;2;5;4]))
    (Some (cols [0;1;0;3;1;2;1;5;2;3;2;4;2;5;3;4;4;5] [1;0;3;0;2;1;5;1;3;2;4;2;5;2;4;3;5;4]))
    (Some [1;1;0;0;2;2;2;2;3;3;3;3;2;2;3;3;4;4])
    (Some [0;0;0;0;0;0])
    (Some (cols [0;1;1;2;2;3;0;3;3;4;2;4] [0;0;1;1;2;2;3;3;4;4;5;5])) None None
    (Some [1;1;1;1;1;1]%Z) None None
    (Some (Some 1)) (Some (Some 5)).
Definition house_t : cochain Z :=
  mkCochain 2 (Some [1]%Z) None None None None
    (Some (cols [2;4;5] [0;0;0])) None None (Some [2]%Z) None None None (Some (Some 6)).
Definition house : complex Z := mkComplexRec 2 [house_v; house_e; house_t] (Some [5%Z]).
Definition house_sz (d : nat) : nat := nth d [5; 6; 1] 0.

(** A path with three vertices, no 2-cells. *)
Definition path_v : cochain Z :=
  mkCochain 0 (Some [7;8;9]%Z) (Some (cols [0;1;1;2] [1;0;2;1])) None None
    (Some [0;0;1;1]) None None None None None None (Some (Some 2)) None.
Definition path_e : cochain Z :=
  mkCochain 1 (Some [10;11]%Z) None (Some (cols [0;1] [1;0])) (Some [1;1]) None
    (Some (cols [0;1;1;2] [0;0;1;1])) None None None None None None (Some (Some 3)).
Definition path3 : complex Z := mkComplexRec 1 [path_v; path_e] (Some [1%Z]).
Definition path3_sz (d : nat) : nat := nth d [3; 2] 0.

(** A single vertex. *)
Definition point_v : cochain Z :=
  mkCochain 0 (Some [42]%Z) None None None None None None None None None None None None.
Definition point : complex Z := mkComplexRec 0 [point_v] None.
Definition point_sz (d : nat) : nat := nth d [1] 0.

(** ** A decision procedure for well-formedness of concrete complexes *)
Definition all_pairs (n1 n2 : nat) (l : list (nat * nat)) : bool :=
  forallb (fun p => (fst p <? n1) && (snd p <? n2)) l.
Definition eqb_oo (a b : option (option nat)) : bool :=
  match a, b with
  | Some (Some x), Some (Some y) => x =? y
  | Some None, Some None | None, None => true
  | _, _ => false
  end.
Definition isNone {A} (o : option A) : bool := negb (isSome o).

Definition wf_cochainb {V} (sz : nat -> nat) (D d : nat) (c : cochain V) : bool :=
  (c_dim c =? d) &&
  (isNone (c_n c) || eqb_oo (c_n c) (Some (Some (sz d)))) &&
  match c_x c with
  | Some xs => length xs =? sz d
  | None => match c_bidx c with Some b => existsb (fun p => S (snd p) =? sz d) b | None => false end
  end &&
  match c_upper c with
  | None => isNone (c_shc c)
  | Some u => (d <? D) && all_pairs (sz d) (sz d) u &&
              match c_shc c with
              | Some s => (length s =? length u) && forallb (fun j => j <? sz (S d)) s
              | None => false
              end
  end &&
  match c_lower c with
  | None => isNone (c_shb c)
  | Some u => (0 <? d) && all_pairs (sz d) (sz d) u &&
              match c_shb c with
              | Some s => (length s =? length u) && forallb (fun j => j <? sz (pred d)) s
              | None => false
              end
  end &&
  match c_bidx c with None => true | Some b => (0 <? d) && all_pairs (sz (pred d)) (sz d) b end &&
  (if d <? D then eqb_oo (c_nup c) (Some (Some (sz (S d))))
   else isNone (c_nup c) || eqb_oo (c_nup c) (Some (Some 0))) &&
  ((d =? 0) || eqb_oo (c_ndown c) (Some (Some (sz (pred d))))).

Definition wf_complexb {V} (k : complex V) (l : list nat) : bool :=
  let sz := fun d => nth d l 0 in
  (length (k_cochains k) =? k_dim k + 1) && (length l <=? k_dim k + 1) &&
  forallb (fun b => b) (mapi (fun d c => wf_cochainb sz (k_dim k) d c) (k_cochains k)).

Lemma all_pairs_ok n1 n2 l : all_pairs n1 n2 l = true -> forall a b, In (a, b) l -> a < n1 /\ b < n2.
Proof.
  unfold all_pairs. rewrite forallb_forall. intros H a b Hin. specialize (H _ Hin). simpl in H.
  apply andb_true_iff in H as [H1 H2]. apply Nat.ltb_lt in H1, H2. auto.
Qed.
Lemma eqb_oo_ok a b : eqb_oo a b = true -> a = b.
Proof.
  destruct a as [[x|]|], b as [[y|]|]; simpl; try discriminate; auto.
  intros H; apply Nat.eqb_eq in H; subst; auto.
Qed.
Lemma isNone_ok {A} (o : option A) : isNone o = true -> o = None.
Proof. destruct o; [discriminate|auto]. Qed.
Lemma all_lt_ok n l : forallb (fun j => j <? n) l = true -> forall j, In j l -> j < n.
Proof. rewrite forallb_forall. intros H j Hj. apply Nat.ltb_lt; auto. Qed.

Lemma wf_cochainb_ok {V} sz D d (c : cochain V) : wf_cochainb sz D d c = true -> wf_cochain sz D d c.
Proof.
  unfold wf_cochainb. rewrite !andb_true_iff.
  intros (((((((H1 & H2) & H3) & H4) & H5) & H6) & H7) & H8).
  split.
  - apply Nat.eqb_eq; auto.
  - apply orb_true_iff in H2 as [H|H]; [left; apply isNone_ok; auto|right; apply eqb_oo_ok; auto].
  - destruct (c_x c); [apply Nat.eqb_eq; auto|]. destruct (c_bidx c) as [b|]; [|discriminate].
    apply existsb_exists in H3 as (p & Hp & E). apply Nat.eqb_eq in E. eauto.
  - destruct (c_upper c) as [u|]; [|apply isNone_ok; auto].
    apply andb_true_iff in H4 as [H4 H4c]. apply andb_true_iff in H4 as [H4a H4b].
    apply Nat.ltb_lt in H4a. split; auto. split; [apply all_pairs_ok; auto|].
    destruct (c_shc c) as [s|]; [|discriminate]. apply andb_true_iff in H4c as [E1 E2].
    exists s. split; auto. split; [apply Nat.eqb_eq; auto|]. apply all_lt_ok; auto.
  - destruct (c_lower c) as [u|]; [|apply isNone_ok; auto].
    apply andb_true_iff in H5 as [H5 H5c]. apply andb_true_iff in H5 as [H5a H5b].
    apply Nat.ltb_lt in H5a. split; auto. split; [apply all_pairs_ok; auto|].
    destruct (c_shb c) as [s|]; [|discriminate]. apply andb_true_iff in H5c as [E1 E2].
    exists s. split; auto. split; [apply Nat.eqb_eq; auto|]. apply all_lt_ok; auto.
  - destruct (c_bidx c) as [b|]; auto. apply andb_true_iff in H6 as [E1 E2].
    apply Nat.ltb_lt in E1. split; auto. apply all_pairs_ok; auto.
  - destruct (d <? D).
    + apply eqb_oo_ok; auto.
    + apply orb_true_iff in H7 as [H|H]; [left; apply isNone_ok; auto|right; apply eqb_oo_ok; auto].
  - intros Hd. apply orb_true_iff in H8 as [H|H]; [apply Nat.eqb_eq in H; lia|apply eqb_oo_ok; auto].
Qed.

Lemma wf_complexb_ok {V} (k : complex V) l :
  wf_complexb k l = true -> wf_complex k (fun d => nth d l 0).
Proof.
  unfold wf_complexb. rewrite !andb_true_iff. intros ((H1 & H2) & H3).
  apply Nat.eqb_eq in H1. apply Nat.leb_le in H2. split; auto.
  - intros d c Hd. apply wf_cochainb_ok. rewrite forallb_forall in H3.
    apply H3. apply nth_error_In with (n := d). rewrite nth_error_mapi, Hd. reflexivity.
  - intros d Hd. apply nth_overflow. lia.
Qed.

Lemma house_wf : wf_complex house house_sz.
Proof. apply (wf_complexb_ok house [5; 6; 1]). reflexivity. Qed.
Lemma path3_wf : wf_complex path3 path3_sz.
Proof. apply (wf_complexb_ok path3 [3; 2]). reflexivity. Qed.
Lemma point_wf : wf_complex point point_sz.
Proof. apply (wf_complexb_ok point [1]). reflexivity. Qed.
