(** The 3-D filter bank: kymatio/scattering3d/filter_bank.py and kymatio/scattering3d/utils.py, in exact arithmetic. *)
From Coq Require Import Reals ZArith List Bool Arith Factorial.
From Coquelicot Require Import Complex.
From Verif Require Import Base NdArray Backend2d Backend3d ComplexOps.
Import ListNotations.

(** filter_bank.py:92-96, 139-143: [np.fft.ifftshift(np.mgrid[-n // 2:-n // 2 + n])] along one axis: entry [i] of the shifted
    axis is entry [(i + n // 2) mod n] of the range. *)
Definition grid_axis (n i : nat) : Z :=
  (- Z.of_nat n / 2 + (Z.of_nat i + Z.of_nat n / 2) mod Z.of_nat n)%Z.
Local Open Scope R_scope.
(** filter_bank.py:97-102, 144-150: frequencies in radians. *)
Definition freq (n i : nat) : R := IZR (grid_axis n i) * (2 * PI / INR n).

(** numpy.arctan2. *)
Definition arctan2 (y x : R) : R :=
  if Rlt_dec 0 x then atan (y / x)
  else if Rlt_dec x 0 then (if Rlt_dec y 0 then atan (y / x) - PI else atan (y / x) + PI)
  else if Rlt_dec 0 y then PI / 2 else if Rlt_dec y 0 then - (PI / 2) else 0.
(** utils.py:44-62 get_3d_angles at one point (z, y, x). *)
Definition angles (z y x : R) : R * R :=
  let azimuthal := arctan2 y x in
  let rxy := sqrt (pow x 2 + pow y 2) in
  let polar := arctan2 z rxy + PI / 2 in
  (polar, azimuthal).
(** utils.py:65-67 double_factorial: 1 below 1, otherwise the product of np.arange(i, 0, -2). *)
Fixpoint double_factorial (i : nat) : nat :=
  match i with O => 1 | S O => 1 | S (S k as k1) => (i * double_factorial k)%nat end.

(** [(-1j) ** l]. *)
Fixpoint cpow_nat (z : C) (n : nat) : C := match n with O => RtoC 1 | S k => Cmult z (cpow_nat z k) end.

Section Bank.
(** scipy.special.sph_harm(m, l, azimuthal, polar). *)
Context (sph_harm : Z -> Z -> R -> R -> C).

(** filter_bank.py:169-180: normalisation and its adjustment; [sigma] is the [_sigma] of the code. *)
Definition norm_at_degree (l : nat) : R :=
  if Nat.even l then 1 / (2 * PI * sqrt (INR l + / 2) * INR (double_factorial (l + 1)))
  else 1 / (Rpower 2 (/ 2 * (INR l + 3)) * sqrt (PI * (2 * INR l + 1)) * INR (fact ((l + 1) / 2))).
Definition norm_factor (fourier : bool) (sigma : R) (l : nat) : C :=
  if fourier then Cmult (RtoC (norm_at_degree l * Rpower (2 * PI) (3 / 2))) (cpow_nat (Copp Ci) l)
  else RtoC (norm_at_degree l / pow sigma 3).
(** filter_bank.py:111-184 solid_harmonic_3d: the component m at one voxel.  [f1, f2, f3] are the coordinates grid[0],
    grid[1], grid[2], already multiplied by 2 pi / size when [fourier]. *)
Definition solid_harmonic_point (fourier : bool) (sigma : R) (l : nat) (m : Z) (f1 f2 f3 : R) : C :=
  let s := if fourier then 1 / sigma else sigma in
  let r_square := pow f1 2 + pow f2 2 + pow f3 2 in
  let r_power_l := sqrt (pow r_square l) in
  let gaussian := exp (- (1 / 2) * r_square / pow s 2) in
  if Nat.eqb l 0 then (if fourier then RtoC gaussian else RtoC (gaussian / (Rpower (2 * PI) (3 / 2) * pow s 3)))
  else
    let polynomial_gaussian := r_power_l * gaussian / pow s l in
    let (polar, azimuthal) := angles f1 f2 f3 in
    Cmult (Cmult (sph_harm m (Z.of_nat l) azimuthal polar) (RtoC polynomial_gaussian)) (norm_factor fourier s l).
Definition solid_harmonic_at (sigma : R) (l : nat) (m : Z) (f1 f2 f3 : R) : C := solid_harmonic_point true sigma l m f1 f2 f3.
(** fourier=True: the default, and what the frontends use (SpaceBank3d has fourier=False). *)
Definition solid_harmonic_3d (M N D : nat) (sigma : R) (l : nat) : list (nd C) :=
  map (fun i => mk_nd Complex [M; N; D]
         (vol M N D (fun a b c => solid_harmonic_at sigma l (Z.of_nat i - Z.of_nat l) (freq M a) (freq N b) (freq D c))))
      (seq 0 (2 * l + 1)).
(** filter_bank.py:8-40 solid_harmonic_filter_bank: filters[l][j][m]. *)
Definition solid_harmonic_filter_bank (M N D : nat) (J L : Z) (sigma_0 : R) : list (list (list (nd C))) :=
  map (fun l => map (fun j => solid_harmonic_3d M N D (sigma_0 * pow 2 (Z.to_nat j)) (Z.to_nat l)) (zrange 0 (J + 1))) (zrange 0 (L + 1)).
End Bank.

(** filter_bank.py:72-109 gaussian_3d with fourier=True (the default), and 43-69 gaussian_filter_bank. *)
Definition gaussian_at (sigma f1 f2 f3 : R) : R := exp (- (1 / 2) * (pow f1 2 + pow f2 2 + pow f3 2) / pow (1 / sigma) 2).
Definition gaussian_3d (M N D : nat) (sigma : R) : list C :=
  vol M N D (fun a b c => RtoC (gaussian_at sigma (freq M a) (freq N b) (freq D c))).
Definition gaussian_filter_bank (M N D : nat) (J : Z) (sigma_0 : R) : list (nd C) :=
  map (fun j => mk_nd Complex [M; N; D] (gaussian_3d M N D (sigma_0 * pow 2 (Z.to_nat j)))) (zrange 0 (J + 1)).

(** utils.py:5-39 generate_weighted_sum_of_gaussians for one signal at one point of the grid: the loop over the points with
    their weights, stopped by the first zero weight. *)
Definition point := (R * R * R)%type.
Definition bump (sigma : R) (g center : point) : R :=
  let '(g0, g1, g2) := g in
  let '(c0, c1, c2) := center in
  exp (- (1 / 2) * (pow (g0 - c0) 2 + pow (g1 - c1) 2 + pow (g2 - c2) 2) / pow sigma 2).
Fixpoint gaussian_loop (sigma : R) (g : point) (wps : list (R * point)) (acc : R) : R :=
  match wps with
  | [] => acc
  | (w, c) :: r => if Req_EM_T w 0 then acc else gaussian_loop sigma g r (acc + w * bump sigma g c)
  end.
Definition weighted_sum_at (sigma : R) (g : point) (wps : list (R * point)) : R :=
  gaussian_loop sigma g wps 0 / (Rpower (2 * PI) (3 / 2) * pow sigma 3).
(** The whole call: [grid] is the list of the points of the grid, [signals] the weights and positions of each signal.
    [weights[i, p]] is read for every point, so that weights and positions are paired. *)
Definition generate_weighted_sum_of_gaussians (grid : list point) (signals : list (list (R * point))) (sigma : R) : list (list R) :=
  map (fun wps => map (fun g => weighted_sum_at sigma g wps) grid) signals.
