(** What a sparse matrix has to do with an index tensor. *)
From Coq Require Import List Arith Permutation.
From Verif Require Import Base ScatterModel ComplexModel MPModel.
From Verif Require Import SparseModel.
Import ListNotations.

(** [s] has one entry in row i and column j for every column (j, i) of the index, with the attribute of this
    column as its value; entries lie inside the matrix and come row by row. *)
Definition matrix_of {V} (s : sparse V) (rows cols : nat) (index : list (nat * nat)) (attr : option (list V)) : Prop :=
  s_size0 s = rows /\ s_size1 s = cols /\
  (forall e, In e (s_entries s) -> fst e < rows /\ snd e < cols) /\
  (forall k l e f, k < l -> nth_error (s_entries s) k = Some e -> nth_error (s_entries s) l = Some f -> fst e <= fst f) /\
  match s_value s, attr with
  | None, None => Permutation (map (fun e => (snd e, fst e)) (s_entries s)) index
  | Some v, Some a => length v = length (s_entries s) /\ length a = length index /\
      Permutation (combine (map (fun e => (snd e, fst e)) (s_entries s)) v) (combine index a)
  | _, _ => False
  end.

(** Both missing, or a matrix of the index. *)
Definition adj_of {V} (n : nat) (a : option (adj V)) (index : option (list (nat * nat))) (attr : option (list V)) : Prop :=
  match a, index with
  | None, None => True
  | Some (ASparse s), Some ix => matrix_of s n n ix attr
  | _, _ => False
  end.
