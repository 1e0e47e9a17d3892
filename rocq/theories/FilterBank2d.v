(** The 2-D filter bank: kymatio/scattering2d/filter_bank.py, in exact arithmetic. *)
From Coq Require Import Reals ZArith List Bool Arith.
From Coquelicot Require Import Complex.
From Verif Require Import Base NdArray Backend Backend2d Core2d ComplexOps.
Import ListNotations.

(** filter_bank.py:56-91 periodize_filter_fft of an [M x N] array: entries in the masked band are set to zero and the
    copies of the crop are added.  [int(M * (1 - 2**(-res)))], [int(M * 2**(-res-1))] and [int(M / 2**res)] are computed
    with integers. *)
Section Periodize.
Context {K : Type} (o : ops K).
Definition masked (M res u : nat) : bool :=
  let len := M * (2 ^ res - 1) / 2 ^ res in
  let start := M / 2 ^ (res + 1) in
  (Nat.leb start u && Nat.ltb u (start + len))%bool.
Definition periodize2 (M N : nat) (x : list K) (res : nat) : list K :=
  let m := M / 2 ^ res in
  let n := N / 2 ^ res in
  let x := img M N (fun u v => if (masked M res u || masked N res v)%bool then o_zero o else iat (o_zero o) N x u v) in
  img m n (fun k l => osum o (map (fun i => osum o (map (fun j => iat (o_zero o) N x (k + i * m) (l + j * n)) (seq 0 (2 ^ res)))) (seq 0 (2 ^ res)))).
Definition level2 (M N : nat) (x : list K) (res : nat) : nd K := mk_nd Real [M / 2 ^ res; N / 2 ^ res] (periodize2 M N x res).
End Periodize.

Local Open Scope R_scope.
(** filter_bank.py:130-174 gabor_2d with [offset = 0].  [R], [D] and [R_inv] are 2 x 2 matrices ((a, b), (c, d)). *)
Definition mul22 (a b : (R * R) * (R * R)) : (R * R) * (R * R) :=
  let '((a00, a01), (a10, a11)) := a in
  let '((b00, b01), (b10, b11)) := b in
  ((a00 * b00 + a01 * b10, a00 * b01 + a01 * b11), (a10 * b00 + a11 * b10, a10 * b01 + a11 * b11)).
Definition curv (sigma theta slant : R) : (R * R) * (R * R) :=
  let R_ := ((cos theta, - sin theta), (sin theta, cos theta)) in
  let R_inv := ((cos theta, sin theta), (- sin theta, cos theta)) in
  let D := ((1, 0), (0, slant * slant)) in
  let '((c00, c01), (c10, c11)) := mul22 R_ (mul22 D R_inv) in
  let s := 2 * sigma * sigma in
  ((c00 / s, c01 / s), (c10 / s, c11 / s)).
(** exp of the complex argument at the point (xx, yy). *)
Definition gabor_term (sigma theta xi slant : R) (xx yy : R) : C :=
  let '((c00, c01), (c10, c11)) := curv sigma theta slant in
  let re := - (c00 * (xx * xx) + (c01 + c10) * (xx * yy) + c11 * (yy * yy)) in
  let im := xx * xi * cos theta + yy * xi * sin theta in
  (RtoC (exp re) * cis im)%C.
Definition gabor_2d (M N : nat) (sigma theta xi slant : R) : list C :=
  img M N (fun u v =>
    (fold_right Cplus 0 (map (fun ex => fold_right Cplus 0 (map (fun ey =>
        gabor_term sigma theta xi slant (IZR (Z.of_nat u + ex * Z.of_nat M)) (IZR (Z.of_nat v + ey * Z.of_nat N)))
        [-2; -1; 0; 1; 2]%Z)) [-2; -1; 0; 1; 2]%Z)
     / RtoC (2 * (31415 / 10000) * sigma * sigma / slant))%C).
(** filter_bank.py:94-127 morlet_2d. *)
Definition morlet_2d (M N : nat) (sigma theta xi slant : R) : list C :=
  let wv := gabor_2d M N sigma theta xi slant in
  let wv_modulus := gabor_2d M N sigma theta 0 slant in
  let k := (osum complex_ops wv / osum complex_ops wv_modulus)%C in
  map (fun ab => (fst ab - k * snd ab)%C) (combine wv wv_modulus).
(** numpy.real(fft2(x)). *)
Definition real_fft2 (M N : nat) (x : list C) : list C := map (fun c => RtoC (Re c)) (sep2 complex_ops dft M N x).

(** filter_bank.py:5-53 filter_bank for padded sizes M, N. *)
Definition psi_2d (M N : nat) (J L j theta : Z) : filter2 (nd C) :=
  let psi_signal := morlet_2d M N (8 / 10 * IZR (2 ^ j)) (IZR (Z.quot (L - 2) 2 - theta) * PI / IZR L)
                      (3 / 4 * PI / IZR (2 ^ j)) (4 / IZR L) in
  let psi_f := real_fft2 M N psi_signal in
  mk_filter2 (map (fun res => level2 complex_ops M N psi_f (Z.to_nat res)) (zrange 0 (Z.min (j + 1) (Z.max (J - 1) 1)))) j theta.
Definition phi_2d (M N : nat) (J : Z) : filter2 (nd C) :=
  let phi_f := real_fft2 M N (gabor_2d M N (8 / 10 * powerRZ 2 (J - 1)) 0 0 1) in
  mk_filter2 (map (fun res => level2 complex_ops M N phi_f (Z.to_nat res)) (zrange 0 J)) J 0.
Definition filter_bank (M N : nat) (J L : Z) : filter2 (nd C) * list (filter2 (nd C)) :=
  (phi_2d M N J, flat_map (fun j => map (psi_2d M N J L j) (zrange 0 L)) (zrange 0 J)).
