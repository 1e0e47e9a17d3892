(** The scalar type of the numerical theorems: complex numbers in exact arithmetic, with the discrete
    Fourier transform.  Real arrays are complex arrays with zero imaginary part. *)
From Coq Require Import Reals ZArith List Lia Lra.
From Coquelicot Require Import Coquelicot.
From Verif Require Import NdArray.
Import ListNotations.
Local Open Scope C_scope.

Definition cis (t : R) : C := (cos t, sin t).
(** exp(2 i pi k / N). *)
Definition root (N : nat) (k : Z) : C := cis (2 * PI * IZR k / INR N).
(** Sum of [f 0 .. f (n-1)]. *)
Fixpoint csum (n : nat) (f : nat -> C) : C :=
  match n with O => 0 | S n' => csum n' f + f n' end.

(** numpy.fft.fft / scipy.fft.ifft of one row, by their definition; the code's 1/N normalisation of ifft. *)
Definition dft_at (N : nat) (x : nat -> C) (k : Z) : C :=
  csum N (fun n => x n * root N (- (k * Z.of_nat n))).
Definition idft_at (N : nat) (x : nat -> C) (n : Z) : C :=
  csum N (fun k => x k * root N (Z.of_nat k * n)) / RtoC (INR N).
Definition at_ (l : list C) (n : nat) : C := nth n l 0.
Definition dft (l : list C) : list C :=
  map (fun k => dft_at (length l) (at_ l) (Z.of_nat k)) (seq 0 (length l)).
Definition idft (l : list C) : list C :=
  map (fun n => idft_at (length l) (at_ l) (Z.of_nat n)) (seq 0 (length l)).

Definition complex_ops : ops C := {|
  o_zero := RtoC 0;
  o_add := Cplus;
  o_mul := Cmult;
  o_divn := fun z n => z / RtoC (INR n);
  o_abs := fun z => RtoC (Cmod z);
  o_re := fun z => RtoC (Re z);
  o_fft := dft;
  o_ifft := idft
|}.
