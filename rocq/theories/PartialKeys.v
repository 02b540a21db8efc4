(** C74, continued: how the entries of the dictionaries are spelt. *)
From Coq Require Import String DecimalString DecimalNat Decimal List Arith.
From Verif Require Import Base PartialModel.
Import ListNotations.
Open Scope string_scope.

(** [s] is the decimal numeral of [n], without leading zeros. *)
Definition numeral (s : string) (n : nat) : Prop :=
  exists u, NilEmpty.uint_of_string s = Some u /\ unorm u = u /\ Nat.of_uint u = n.

Lemma number_numeral n : numeral (number n) n.
Proof.
  exists (Nat.to_uint n). unfold number. rewrite NilEmpty.usu. split; [reflexivity|].
  rewrite <- Unsigned.to_of, !Unsigned.of_to. now split.
Qed.

Lemma numeral_unique s n : numeral s n -> s = number n.
Proof.
  intros (u & E & N & V). unfold number. rewrite <- V, Unsigned.to_of, N. symmetry. now apply NilEmpty.sus.
Qed.

(** The entry of layer [c] and dimension [k] is called "layer<c>_<k>", that of the pooled read-out
    dimension number [k] "pool_<k>", with decimal numerals, and nothing else is. *)
Theorem C74_key_names c k s :
  (s = layer_key c k <-> exists a b, s = "layer" ++ a ++ "_" ++ b /\ numeral a c /\ numeral b k) /\
  (s = pool_key k <-> exists b, s = "pool_" ++ b /\ numeral b k).
Proof.
  split; split.
  - intros ->. exists (number c), (number k). split; [reflexivity|]. split; apply number_numeral.
  - intros (a & b & -> & A & B). now rewrite (numeral_unique _ _ A), (numeral_unique _ _ B).
  - intros ->. exists (number k). split; [reflexivity|apply number_numeral].
  - intros (b & -> & B). now rewrite (numeral_unique _ _ B).
Qed.

Example C74_key_names_case : layer_key 10 2 = "layer10_2" /\ numeral "10" 10 /\ numeral "2" 2 /\ pool_key 0 = "pool_0" /\
  ~ numeral "01" 1 /\ ~ numeral "x" 1.
Proof.
  split; [reflexivity|]. split; [exact (number_numeral 10)|]. split; [exact (number_numeral 2)|]. split; [reflexivity|].
  split; intros H; apply numeral_unique in H; discriminate.
Qed.
Print Assumptions C74_key_names.
