(** The filters of the 3-D bank with the [fourier] argument of kymatio/scattering3d/filter_bank.py, which the frontends leave at its
    default True: with False they are tabulated in space. *)
From Coq Require Import Reals ZArith List Bool Arith.
From Coquelicot Require Import Complex.
From Verif Require Import Base NdArray Backend2d Backend3d ComplexOps FilterBank3d.
Import ListNotations.
Local Open Scope R_scope.

(** filter_bank.py:92-102, 139-150: the coordinate along an axis of size [n], multiplied by 2 pi / n in the Fourier domain. *)
Definition coordinate (fourier : bool) (n i : nat) : R := if fourier then freq n i else IZR (grid_axis n i).

(** filter_bank.py:72-109 gaussian_3d. *)
Definition gaussian_point (fourier : bool) (sigma f1 f2 f3 : R) : R :=
  let s := if fourier then 1 / sigma else sigma in
  let g := exp (- (1 / 2) * (pow f1 2 + pow f2 2 + pow f3 2) / pow s 2) in
  if fourier then g else g / (Rpower (2 * PI) (3 / 2) * pow s 3).
Definition gaussian_3d_in (fourier : bool) (M N D : nat) (sigma : R) : list C :=
  vol M N D (fun a b c => RtoC (gaussian_point fourier sigma (coordinate fourier M a) (coordinate fourier N b) (coordinate fourier D c))).
(** filter_bank.py:43-69 gaussian_filter_bank. *)
Definition gaussian_filter_bank_in (fourier : bool) (M N D : nat) (J : Z) (sigma_0 : R) : list (nd C) :=
  map (fun j => mk_nd Complex [M; N; D] (gaussian_3d_in fourier M N D (sigma_0 * pow 2 (Z.to_nat j)))) (zrange 0 (J + 1)).

Section Bank.
(** scipy.special.sph_harm(m, l, azimuthal, polar). *)
Context (sph_harm : Z -> Z -> R -> R -> C).
(** filter_bank.py:111-184 solid_harmonic_3d. *)
Definition solid_harmonic_3d_in (fourier : bool) (M N D : nat) (sigma : R) (l : nat) : list (nd C) :=
  map (fun i => mk_nd Complex [M; N; D]
         (vol M N D (fun a b c => solid_harmonic_point sph_harm fourier sigma l (Z.of_nat i - Z.of_nat l)
                                    (coordinate fourier M a) (coordinate fourier N b) (coordinate fourier D c))))
      (seq 0 (2 * l + 1)).
(** filter_bank.py:8-40 solid_harmonic_filter_bank: filters[l][j][m]. *)
Definition solid_harmonic_filter_bank_in (fourier : bool) (M N D : nat) (J L : Z) (sigma_0 : R) : list (list (list (nd C))) :=
  map (fun l => map (fun j => solid_harmonic_3d_in fourier M N D (sigma_0 * pow 2 (Z.to_nat j)) (Z.to_nat l)) (zrange 0 (J + 1))) (zrange 0 (L + 1)).
End Bank.
