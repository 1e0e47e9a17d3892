(** kymatio/scattering3d/utils.py:65-67 double_factorial with the integers of NumPy: numpy.arange of Python integers has
    64-bit entries and numpy.prod multiplies them modulo 2**64 without a warning. *)
From Coq Require Import Reals ZArith List Bool Arith Lia.
From Verif Require Import FilterBank3d.
Import ListNotations.
Local Open Scope Z_scope.

(** The signed 64-bit integer congruent to [z]. *)
Definition wrap64 (z : Z) : Z := (z + 2 ^ 63) mod 2 ^ 64 - 2 ^ 63.
(** numpy.arange(i, 0, -2): i, i - 2, ... as long as positive. *)
Definition arange_down2 (i : Z) : list Z := map (fun k => i - 2 * Z.of_nat k) (seq 0 (Z.to_nat ((i + 1) / 2))).
(** numpy.prod of 64-bit integers. *)
Definition prod64 (l : list Z) : Z := fold_left (fun a b => wrap64 (a * b)) l 1.
(** utils.py:65-67.  The Python integer 1 is returned below 1, otherwise a NumPy integer. *)
Definition double_factorial64 (i : Z) : Z := if i <? 1 then 1 else prod64 (arange_down2 i).

Local Open Scope R_scope.
(** filter_bank.py:169-171, the normalisation of an even degree, as computed with that double factorial; the product with the
    floating-point numbers before it is in real arithmetic here. *)
Definition norm_even64 (l : nat) : R := 1 / (2 * PI * sqrt (INR l + / 2) * IZR (double_factorial64 (Z.of_nat l + 1))).
