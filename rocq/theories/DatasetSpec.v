(** Specification of storing and retrieving complexes.  Only the records of the model are used. *)
From Coq Require Import List Arith ZArith Bool.
From Verif Require Import Base ComplexModel.
Import ListNotations.

Section Spec.
Context {V : Type}.
Notation cochain := (cochain V).
Notation complex := (complex V).

(** The number of cells [n d] of a cochain can be told from a recorded count, from features that
    are there, or, with neither, from the boundary relation. *)
Record storable_cochain (n : nat -> nat) (D d : nat) (c : cochain) : Prop := {
  so_dim : c_dim c = d;
  so_n : c_n c = Some (Some (n d)) \/
         (c_n c = None /\ exists xs, c_x c = Some xs /\ xs <> [] /\ length xs = n d) \/
         (c_n c = None /\ c_x c = None /\
          exists b, c_bidx c = Some b /\ (exists p, In p b /\ S (snd p) = n d) /\
                    forall p, In p b -> snd p < n d);
  so_nup : if d <? D then c_nup c = Some (Some (n (S d))) else c_nup c <> Some None;
  so_ndown : 0 < d -> c_ndown c = Some (Some (n (pred d)))
}.

Record storable (k : complex) (n : nat -> nat) : Prop := {
  st_len : length (k_cochains k) = k_dim k + 1;
  st_each : forall d c, nth_error (k_cochains k) d = Some c -> storable_cochain n (k_dim k) d c
}.

(** Either no complex has a label or each has a label tensor with one row. *)
Definition labelled (ks : list complex) : Prop :=
  (forall k, In k ks -> k_y k = None) \/ (forall k, In k ks -> exists z, k_y k = Some [z]).

(** A tensor without entries and a missing tensor. *)
Definition shrink {T} (o : option (list T)) : option (list T) :=
  match o with Some [] => None | _ => o end.

(** [c'] carries the same data as [c], up to tensors without entries.  (At dimension 0 there are no
    lower cells to count.) *)
Record same_cochain (d : nat) (c c' : cochain) : Prop := {
  sa_dim : c_dim c' = c_dim c;
  sa_x : c_x c' = shrink (c_x c);
  sa_upper : c_upper c' = shrink (c_upper c);
  sa_lower : c_lower c' = shrink (c_lower c);
  sa_shb : c_shb c' = shrink (c_shb c);
  sa_shc : c_shc c' = shrink (c_shc c);
  sa_bidx : c_bidx c' = shrink (c_bidx c);
  sa_uor : c_uor c' = shrink (c_uor c);
  sa_lor : c_lor c' = shrink (c_lor c);
  sa_y : c_y c' = shrink (c_y c);
  sa_mask : c_mask c' = shrink (c_mask c);
  sa_n : c_n c' = c_n c;
  sa_nup : c_nup c' = c_nup c;
  sa_ndown : 0 < d -> c_ndown c' = c_ndown c
}.

Record same_complex (k k' : complex) : Prop := {
  sk_dim : k_dim k' = k_dim k;
  sk_y : k_y k' = k_y k;
  sk_len : length (k_cochains k') = length (k_cochains k);
  sk_each : forall d c, nth_error (k_cochains k) d = Some c ->
    exists c', nth_error (k_cochains k') d = Some c' /\ same_cochain d c c'
}.

(** No tensor without entries. *)
Definition full {T} (o : option (list T)) : Prop := o <> Some [].
Definition tidy_cochain (c : cochain) : Prop :=
  full (c_x c) /\ full (c_upper c) /\ full (c_lower c) /\ full (c_shb c) /\ full (c_shc c) /\
  full (c_bidx c) /\ full (c_uor c) /\ full (c_lor c) /\ full (c_y c) /\ full (c_mask c).
Definition tidy (k : complex) : Prop := forall c, In c (k_cochains k) -> tidy_cochain c.

(** Identical up to the unused count of lower cells at dimension 0. *)
Definition identical_cochain (d : nat) (c c' : cochain) : Prop :=
  c' = mkCochain (c_dim c) (c_x c) (c_upper c) (c_lower c) (c_shb c) (c_shc c) (c_bidx c) (c_uor c)
         (c_lor c) (c_y c) (c_mask c) (c_n c) (c_nup c)
         (if d =? 0 then c_ndown c' else c_ndown c).
Record identical (k k' : complex) : Prop := {
  id_dim : k_dim k' = k_dim k;
  id_y : k_y k' = k_y k;
  id_len : length (k_cochains k') = length (k_cochains k);
  id_each : forall d c, nth_error (k_cochains k) d = Some c ->
    exists c', nth_error (k_cochains k') d = Some c' /\ identical_cochain d c c'
}.

(** Some cochain of dimension at most [max_dim] carries a tensor. *)
Definition carries (c : cochain) : Prop :=
  c_x c <> None \/ c_upper c <> None \/ c_lower c <> None \/ c_shb c <> None \/ c_shc c <> None \/
  c_bidx c <> None \/ c_uor c <> None \/ c_lor c <> None \/ c_y c <> None \/ c_mask c <> None.
Definition nonvoid (ks : list complex) (max_dim : nat) : Prop :=
  exists k d c, In k ks /\ d <= max_dim /\ nth_error (k_cochains k) d = Some c /\ carries c.

End Spec.
