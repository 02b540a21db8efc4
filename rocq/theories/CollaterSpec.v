(** Specification of places within samples and batches, for C76. *)
From Coq Require Import String List Arith Bool ZArith Ascii.
From Verif Require Import Base ComplexModel.
From Verif Require Import CollaterModel.
Import ListNotations.

Section Spec.
Context {V D DB T F F32 : Type}.
Notation value := (value V D T F).
Notation batched := (batched V D DB T F F32).

(** Steps into mappings, and into lists, tuples and named tuples. *)
Inductive step := Key (k : string) | Idx (j : nat).

Fixpoint find_key {A} (k : string) (l : list (string * A)) : option A :=
  match l with [] => None | p :: r => if string_dec k (fst p) then Some (snd p) else find_key k r end.
Definition part (v : value) (s : step) : option value :=
  match v, s with
  | VMap kvs, Key k => find_key k kvs
  | VSeq vs, Idx j => nth_error vs j
  | VNamed _ vs, Idx j => nth_error vs j
  | _, _ => None
  end.
Definition bpart (b : batched) (s : step) : option batched :=
  match b, s with
  | BMap kvs, Key k => find_key k kvs
  | BSeq vs, Idx j => nth_error vs j
  | BNamed _ vs, Idx j => nth_error vs j
  | _, _ => None
  end.
Fixpoint part_at (v : value) (p : list step) : option value :=
  match p with [] => Some v | s :: p' => match part v s with Some u => part_at u p' | None => None end end.
Fixpoint bpart_at (b : batched) (p : list step) : option batched :=
  match p with [] => Some b | s :: p' => match bpart b s with Some u => bpart_at u p' | None => None end end.

(** What the samples have at a place. *)
Definition parts_at (batch : list value) (p : list step) (vs : list value) : Prop :=
  Forall2 (fun v u => part_at v p = Some u) batch vs.

(** Samples that are taken apart in the same way. *)
Inductive kind := KCochain | KComplex | KGraph | KTensor | KFloat | KInt | KBool | KStr | KMap | KNamed (fields : list string) | KSeq | KOther.
Definition kind_of (v : value) : kind :=
  match v with
  | VCochain _ => KCochain | VComplex _ => KComplex | VGraph _ => KGraph | VTensor _ => KTensor | VFloat _ => KFloat
  | VInt _ => KInt | VBool _ => KBool | VStr _ => KStr | VMap _ => KMap | VNamed fs _ => KNamed fs | VSeq _ => KSeq | VOther => KOther
  end.
Definition alike (v w : value) : Prop := forall p, option_map kind_of (part_at v p) = option_map kind_of (part_at w p).
(** Weaker: where two samples both have something it is of the same kind. *)
Definition similar (v w : value) : Prop :=
  forall p u u', part_at v p = Some u -> part_at w p = Some u' -> kind_of u = kind_of u'.
Definition is_leaf (v : value) : Prop := match v with VMap _ | VNamed _ _ | VSeq _ => False | _ => True end.
(** No key twice; as many components as fields. *)
Definition proper (v : value) : Prop :=
  forall p u, part_at v p = Some u ->
    match u with
    | VMap kvs => NoDup (map fst kvs)
    | VNamed fs vs => List.length vs = List.length fs
    | _ => True
    end.
End Spec.

(** The attribute of that name. *)
Inductive names {V} : string -> forall {A}, (cochain V -> option (list A)) -> Prop :=
| n_x : names "_Cochain__x" c_x
| n_upper : names "upper_index" c_upper
| n_lower : names "lower_index" c_lower
| n_bidx : names "boundary_index" c_bidx
| n_y : names "y" c_y
| n_shb : names "shared_boundaries" c_shb
| n_shc : names "shared_coboundaries" c_shc
| n_uor : names "upper_orient" c_uor
| n_lor : names "lower_orient" c_lor
| n_mask : names "mask" c_mask.

(** Which member the entries come from: [n0] times 0, then [n1] times 1, ... *)
Fixpoint owners (i : nat) (sizes : list nat) : list nat :=
  match sizes with [] => [] | n :: r => repeat i n ++ owners (S i) r end.
