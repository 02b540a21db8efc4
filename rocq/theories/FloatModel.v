(** The row algebra of the project as it is on the machine: IEEE-754 binary32. *)
From Coq Require Import List Arith ZArith Bool.
From Flocq Require Import Core BinarySingleNaN.
From Verif Require Import Base ScatterModel.
Import ListNotations.

(** torch.float32, the type of every feature matrix (data/datasets/sr.py:37,
    data/datasets/ring_utils.py:29, data/dummy_complexes.py:70): 24 bits of precision, exponents below 128, subnormal
    numbers, infinities and not-a-number.  All not-a-numbers are one value: their payload is
    not modelled. *)
Definition float := binary_float 24 128.

Global Instance prec24 : Prec_gt_0 24 := eq_refl.
Global Instance emax128 : Prec_lt_emax 24 128 := eq_refl.

(** The default rounding of the machine: to nearest, ties to even. *)
Definition fadd (a b : float) : float := Bplus mode_NE a b.
Definition fdiv (a b : float) : float := Bdiv mode_NE a b.
(** Conversion of an integer, rounded to nearest. *)
Definition fZ (z : Z) : float := binary_normalize 24 128 _ _ mode_NE z 0 false.
Definition fzero : float := B754_zero false.

(** torch_scatter 2.0.x, csrc/reducer.h: [if (val > *out) *out = val], and [<] for the minimum. *)
Definition fmax (a b : float) : float := if Bltb a b then b else a.
Definition fmin (a b : float) : float := if Bltb b a then b else a.

(** Rows of any width: the entry in every column.  torch_scatter works column by column
    (mp/cell_mp.py:439-440 calls it with dim=self.node_dim), in the order of the index on a CPU.
    The count that 'mean' divides by is itself a float. *)
Definition frow := nat -> float.
Definition FO : ops frow := {|
  vzero := fun _ => fzero;
  vadd := fun a b c => fadd (a c) (b c);
  vdivn := fun a n c => fdiv (a c) (fZ (Z.of_nat n));
  vmax := fun a b c => fmax (a c) (b c);
  vmin := fun a b c => fmin (a c) (b c) |}.
