(** Specification of well-formed complexes and of the batch (disjoint union) of a list of them.
    Nothing here uses the functions of ComplexModel, only its records. *)
From Coq Require Import List Arith ZArith Bool.
From Verif Require Import Base ComplexModel.
Import ListNotations.

Section Spec.
Context {V : Type}.
Notation cochain := (cochain V).
Notation complex := (complex V).

(** [sz d] is the number of [d]-cells of a complex of dimension [D];
    [wf_cochain sz D d c]: [c] is a consistent [d]-cochain of such a complex. *)
Record wf_cochain (sz : nat -> nat) (D d : nat) (c : cochain) : Prop := {
  wf_dim : c_dim c = d;
  wf_n : c_n c = None \/ c_n c = Some (Some (sz d));
  (* cells are counted by the features or, without features, by the boundary relation *)
  wf_x : match c_x c with
         | Some xs => length xs = sz d
         | None => exists b p, c_bidx c = Some b /\ In p b /\ S (snd p) = sz d
         end;
  wf_upper : match c_upper c with
             | None => c_shc c = None
             | Some u =>
                 d < D /\
                 (forall a b, In (a, b) u -> a < sz d /\ b < sz d) /\
                 exists s, c_shc c = Some s /\ length s = length u /\
                           forall j, In j s -> j < sz (S d)
             end;
  wf_lower : match c_lower c with
             | None => c_shb c = None
             | Some u =>
                 0 < d /\
                 (forall a b, In (a, b) u -> a < sz d /\ b < sz d) /\
                 exists s, c_shb c = Some s /\ length s = length u /\
                           forall j, In j s -> j < sz (pred d)
             end;
  wf_bidx : match c_bidx c with
            | None => True
            | Some b => 0 < d /\ forall f t, In (f, t) b -> f < sz (pred d) /\ t < sz d
            end;
  wf_nup : if d <? D then c_nup c = Some (Some (sz (S d)))
           else c_nup c = None \/ c_nup c = Some (Some 0);
  wf_ndown : 0 < d -> c_ndown c = Some (Some (sz (pred d)))
}.

Record wf_complex (k : complex) (sz : nat -> nat) : Prop := {
  wfk_len : length (k_cochains k) = k_dim k + 1;
  wfk_each : forall d c, nth_error (k_cochains k) d = Some c -> wf_cochain sz (k_dim k) d c;
  wfk_above : forall d, k_dim k < d -> sz d = 0
}.

(** Attribute [get] of dimension [d] of a complex, if there. *)
Definition attr {T} (get : cochain -> option (list T)) (d : nat) (k : complex) : option (list T) :=
  match nth_error (k_cochains k) d with Some c => get c | None => None end.

(** In every dimension up to [D] either all members have features or none has. *)
Definition uniform_x (ks : list complex) (D : nat) : Prop :=
  forall d, d <= D ->
    (forall k c, In k ks -> nth_error (k_cochains k) d = Some c -> c_x c <> None) \/
    (forall k c, In k ks -> nth_error (k_cochains k) d = Some c -> c_x c = None).

(** Number of [d]-cells of the members before the [i]-th one. *)
Definition off (szs : list (nat -> nat)) (i d : nat) : nat :=
  list_sum (map (fun sz => sz d) (firstn i szs)).
Definition total (szs : list (nat -> nat)) (d : nat) : nat :=
  list_sum (map (fun sz => sz d) szs).

(** Concatenation of an optional attribute over the members, the [i]-th one shifted. *)
Definition joined {T} (shift : nat -> T -> T) (ls : list (option (list T))) : option (list T) :=
  if existsb isSome ls then
    Some (concat (mapi (fun i o => match o with Some l => map (shift i) l | None => [] end) ls))
  else None.

(** [c] is the disjoint union of the [d]-cochains of [ks]. *)
Record union_cochain (ks : list complex) (szs : list (nat -> nat)) (D d : nat) (c : cochain)
  : Prop := {
  un_dim : c_dim c = d;
  un_n : c_n c = None;
  un_x : c_x c = joined (fun _ v => v) (map (attr c_x d) ks);
  un_upper : c_upper c =
    joined (fun i p => (fst p + off szs i d, snd p + off szs i d)) (map (attr c_upper d) ks);
  un_lower : c_lower c =
    joined (fun i p => (fst p + off szs i d, snd p + off szs i d)) (map (attr c_lower d) ks);
  un_shc : c_shc c = joined (fun i j => j + off szs i (S d)) (map (attr c_shc d) ks);
  un_shb : c_shb c = joined (fun i j => j + off szs i (pred d)) (map (attr c_shb d) ks);
  un_bidx : c_bidx c =
    joined (fun i p => (fst p + off szs i (pred d), snd p + off szs i d)) (map (attr c_bidx d) ks);
  un_uor : c_uor c = joined (fun _ v => v) (map (attr c_uor d) ks);
  un_lor : c_lor c = joined (fun _ v => v) (map (attr c_lor d) ks);
  un_y : c_y c = joined (fun _ v => v) (map (attr c_y d) ks);
  un_mask : c_mask c = joined (fun _ v => v) (map (attr c_mask d) ks);
  un_nup : if d <? D then c_nup c = Some (Some (total szs (S d))) else c_nup c = None;
  un_ndown : 0 < d -> c_ndown c = Some (Some (total szs (pred d)))
}.

(** [K] is the complex underlying the batch of [ks], truncated at dimension [D]. *)
Record union_complex (ks : list complex) (szs : list (nat -> nat)) (D : nat) (K : complex)
  : Prop := {
  uc_dim : k_dim K = D;
  uc_len : length (k_cochains K) = D + 1;
  uc_each : forall d c, nth_error (k_cochains K) d = Some c -> union_cochain ks szs D d c
}.

(** The assignment of cells to members. *)
Definition membership (szs : list (nat -> nat)) (d : nat) : list nat :=
  concat (mapi (fun i sz => repeat i (sz d)) szs).

(** Running totals over the members that have dimension [d]. *)
Definition boundaries_of (ks : list complex) (szs : list (nat -> nat)) (d : nat) : list nat :=
  0 :: concat (mapi (fun i k => if d <=? k_dim k then [off szs (S i) d] else []) ks).

Record is_batch (ks : list complex) (szs : list (nat -> nat)) (D : nat) (b : kbatch V) : Prop := {
  ib_complex : union_complex ks szs D (kb_complex b);
  ib_num : kb_num b = length ks;
  ib_batch : kb_batch b = map (fun d => Some (membership szs d)) (seq 0 (D + 1));
  ib_ptr : kb_ptr b = map (fun d => Some (boundaries_of ks szs d)) (seq 0 (D + 1))
}.

End Spec.
