(** The core of the 2-D scattering transform: kymatio/scattering2d/core/scattering2d.py. *)
From Coq Require Import String ZArith List Bool Arith.
From Verif Require Import Base NdArray Backend Backend2d.
Import ListNotations.
Local Open Scope Z_scope.
Local Open Scope res_scope.

(** A filter dictionary {'levels', 'j', 'theta'} of filter_bank; the low-pass has no 'theta'. *)
Record filter2 (W : Type) := mk_filter2 { g_levels : list W; g_j : Z; g_theta : Z }.
Arguments mk_filter2 {W}. Arguments g_levels {W}. Arguments g_j {W}. Arguments g_theta {W}.
(** A dictionary {'coef', 'j', 'n', 'theta'} of the output. *)
Record path2 (X : Type) := mk_path2 { r_coef : X; r_j : list Z; r_n : list nat; r_theta : list Z }.
Arguments mk_path2 {X}. Arguments r_coef {X}. Arguments r_j {X}. Arguments r_n {X}. Arguments r_theta {X}.
Inductive output2 (X : Type) := Array2 (a : X) | List2 (l : list (path2 X)).
Arguments Array2 {X}. Arguments List2 {X}.

Section Core2.
Context {X W : Type} (be : backend2 X W) (J : Z) (phi : filter2 W) (psi : list (filter2 W)).

(** scattering2d.py:18-30: low-pass filter at level [l], subsampling by 2**k, inverse transform, unpadding. *)
Definition lowpass2 (U_c : X) (l k : Z) : res X :=
  w <- py_index (g_levels phi) l ;;
  S_c <- b2_cdgmm be U_c w ;;
  S_c <- b2_subsample be S_c (pow2 k) ;;
  S_r <- b2_irfft be S_c ;;
  b2_unpad be S_r.

(** scattering2d.py:59-83: body of the inner loop (nothing when j2 <= j1). *)
Definition second2 (n1 : nat) (j1 theta1 : Z) (U_1_c : X) (np2 : nat * filter2 W) : res (list (path2 X)) :=
  let (n2, psi2) := np2 in
  let j2 := g_j psi2 in
  let theta2 := g_theta psi2 in
  if j2 <=? j1 then Ok [] else
  w <- py_index (g_levels psi2) j1 ;;
  U_2_c <- b2_cdgmm be U_1_c w ;;
  U_2_c <- b2_subsample be U_2_c (pow2 (j2 - j1)) ;;
  U_2_c <- b2_ifft be U_2_c ;;
  U_2_c <- b2_modulus be U_2_c ;;
  U_2_c <- b2_rfft be U_2_c ;;
  S_2_r <- lowpass2 U_2_c j2 (J - j2) ;;
  Ok [mk_path2 S_2_r [j1; j2] [n1; n2] [theta1; theta2]].

(** scattering2d.py:33-83: body of the outer loop, giving the first-order path and the second-order paths. *)
Definition first2 (max_order : Z) (U_0_c : X) (np1 : nat * filter2 W) : res (path2 X * list (path2 X)) :=
  let (n1, psi1) := np1 in
  let j1 := g_j psi1 in
  let theta1 := g_theta psi1 in
  w <- py_index (g_levels psi1) 0 ;;
  U_1_c <- b2_cdgmm be U_0_c w ;;
  U_1_c <- (if 0 <? j1 then b2_subsample be U_1_c (pow2 j1) else Ok U_1_c) ;;
  U_1_c <- b2_ifft be U_1_c ;;
  U_1_c <- b2_modulus be U_1_c ;;
  U_1_c <- b2_rfft be U_1_c ;;
  S_1_r <- lowpass2 U_1_c j1 (J - j1) ;;
  let p1 := mk_path2 S_1_r [j1] [n1] [theta1] in
  if max_order <? 2 then Ok (p1, [])
  else ps <- mapM (second2 n1 j1 theta1 U_1_c) (enumerate psi) ;; Ok (p1, concat ps).

(** scattering2d.py:1-90 scattering2d. *)
Definition paths2 (pad : X -> res X) (max_order : Z) (x : X) : res (list (path2 X)) :=
  U_r <- pad x ;;
  U_0_c <- b2_rfft be U_r ;;
  S_0 <- lowpass2 U_0_c 0 J ;;
  ps <- mapM (first2 max_order U_0_c) (enumerate psi) ;;
  Ok (mk_path2 S_0 [] [] [] :: map fst ps ++ concat (map snd ps)).
Definition scattering2d (pad : X -> res X) (max_order : Z) (out_type : string) (x : X) : res (output2 X) :=
  ps <- paths2 pad max_order x ;;
  if String.eqb out_type "array" then a <- b2_stack be (map r_coef ps) ;; Ok (Array2 a) else Ok (List2 ps).
End Core2.
