(** What the partial results of a batch have to be. *)
From Coq Require Import List.
Import ListNotations.

(** The values of a key for the members of a batch put one after the other, members without the key left out. *)
Fixpoint join {A} (l : list (option (list A))) : option (list A) :=
  match l with
  | [] => None
  | None :: l' => join l'
  | Some x :: l' => Some (match join l' with Some y => x ++ y | None => x end)
  end.
