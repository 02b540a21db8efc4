(** Specification vocabulary for selecting a block of a batch and for truncation. *)
From Coq Require Import List Arith ZArith Bool.
From Verif Require Import Base ComplexModel.
Import ListNotations.

(** The content of an optional tensor; an absent one is empty. *)
Definition content {T} (o : option (list T)) : list T := match o with Some l => l | None => [] end.

Definition in_block (lo n j : nat) : bool := (lo <=? j) && (j <? lo + n).

(** The columns of an index whose first (second) entry lies in the block starting at [lo1]
    ([lo2]) of length [n1] ([n2]), with the block offsets subtracted. *)
Definition restrict (lo1 n1 lo2 n2 : nat) (l : list (nat * nat)) : list (nat * nat) :=
  map (fun p => (fst p - lo1, snd p - lo2))
      (filter (fun p => in_block lo1 n1 (fst p) && in_block lo2 n2 (snd p)) l).

(** The references attached to the columns of an index whose entries lie in the block. *)
Definition restrict_refs (lo n lor : nat) (l : list (nat * nat)) (refs : list nat) : list nat :=
  map (fun q => snd q - lor)
      (filter (fun q => in_block lo n (fst (fst q)) && in_block lo n (snd (fst q)))
              (combine l refs)).

(** The rows of a block. *)
Definition rows_of {T} (lo n : nat) (l : list T) : list T := firstn n (skipn lo l).

(** A complex with all cochains above dimension [D] removed. *)
Definition truncate {V} (D : nat) (k : complex V) : complex V :=
  mkComplexRec (Nat.min (k_dim k) D) (firstn (D + 1) (k_cochains k)) (k_y k).
