(** Model of kymatio/scattering1d/core/scattering1d.py, polymorphic in the backend. *)
From Coq Require Import ZArith List Bool.
From Verif Require Import Base NdArray Backend.
Import ListNotations.
Local Open Scope Z_scope.
Local Open Scope res_scope.

(** A filter dictionary (kymatio/scattering1d/filter_bank.py:388, 399-402): [W] is the type of one level,
    [P] the type of xi and sigma.  The key 'N' of low-pass filters is [f_N]. *)
Record filter (W P : Type) := mk_filter {
  f_levels : list W; f_xi : P; f_sigma : P; f_j : Z; f_N : Z
}.
Arguments mk_filter {W P}. Arguments f_levels {W P}. Arguments f_xi {W P}. Arguments f_sigma {W P}.
Arguments f_j {W P}. Arguments f_N {W P}.

(** A yielded dictionary {'coef', 'j', 'n'}. *)
Record path (X : Type) := mk_path { p_coef : X; p_j : list Z; p_n : list nat }.
Arguments mk_path {X}. Arguments p_coef {X}. Arguments p_j {X}. Arguments p_n {X}.

Section Core.
Context {X W P : Type} (be : backend X W).

(** scattering1d.py:43-51: zeroth order. *)
Definition order0 (phi : filter W P) (U_0 U_0_hat : X) (log2_stride : Z) (average_local : bool)
    : res (path X) :=
  if average_local then
    l0 <- py_index (f_levels phi) 0 ;;
    S_0_c <- be_cdgmm be U_0_hat l0 ;;
    S_0_hat <- be_subsample be S_0_c (pow2 log2_stride) ;;
    S_0_r <- be_irfft be S_0_hat ;;
    Ok (mk_path S_0_r [] [])
  else Ok (mk_path U_0 [] []).

(** scattering1d.py:82-105: body of the loop over n2 (empty list when j2 <= j1). *)
Definition order2 (phi : filter W P) (U_1_hat : X) (n1 : nat) (j1 k1 : Z) (log2_stride : Z)
    (average_local : bool) (np2 : nat * filter W P) : res (list (path X)) :=
  let (n2, psi2) := np2 in
  let j2 := f_j psi2 in
  if j1 <? j2 then
    let sub2_adj := if average_local then Z.min j2 log2_stride else j2 in
    let k2 := Z.max (sub2_adj - k1) 0 in
    l2 <- py_index (f_levels psi2) k1 ;;
    U_2_c <- be_cdgmm be U_1_hat l2 ;;
    U_2_hat <- be_subsample be U_2_c (pow2 k2) ;;
    U_2_c <- be_ifft be U_2_hat ;;
    U_2_m <- be_modulus be U_2_c ;;
    if average_local then
      U_2_hat <- be_rfft be U_2_m ;;
      let k2_log2_T := Z.max (log2_stride - sub2_adj) 0 in
      lp <- py_index (f_levels phi) (k1 + k2) ;;
      S_2_c <- be_cdgmm be U_2_hat lp ;;
      S_2_hat <- be_subsample be S_2_c (pow2 k2_log2_T) ;;
      S_2_r <- be_irfft be S_2_hat ;;
      Ok [mk_path S_2_r [j1; j2] [n1; n2]]
    else Ok [mk_path U_2_m [j1; j2] [n1; n2]]
  else Ok [].

(** scattering1d.py:58-63: wavelet modulus at first order; returns U_1_m. *)
Definition order1_modulus (U_0_hat : X) (psi1 : filter W P) (k1 : Z) : res X :=
  l1 <- py_index (f_levels psi1) 0 ;;
  U_1_c <- be_cdgmm be U_0_hat l1 ;;
  U_1_hat <- be_subsample be U_1_c (pow2 k1) ;;
  U_1_c <- be_ifft be U_1_hat ;;
  be_modulus be U_1_c.

(** scattering1d.py:55-105: body of the loop over n1; yields the first-order path followed by the
    second-order paths sharing n1.  [psi2s] is [Some filters[2]] iff [len(filters) > 2]. *)
Definition order1 (phi : filter W P) (psi2s : option (list (filter W P))) (U_0_hat : X)
    (log2_stride : Z) (average_local : bool) (np1 : nat * filter W P) : res (list (path X)) :=
  let (n1, psi1) := np1 in
  let j1 := f_j psi1 in
  let k1 := if average_local then Z.min j1 log2_stride else j1 in
  U_1_m <- order1_modulus U_0_hat psi1 k1 ;;
  (* U_1_hat is recomputed only when it is needed below *)
  U_1_hat <- (if average_local || (match psi2s with Some _ => true | None => false end)
              then be_rfft be U_1_m else Ok U_1_m) ;;
  p1 <- (if average_local then
           let k1_J := Z.max (log2_stride - k1) 0 in
           lp <- py_index (f_levels phi) k1 ;;
           S_1_c <- be_cdgmm be U_1_hat lp ;;
           S_1_hat <- be_subsample be S_1_c (pow2 k1_J) ;;
           S_1_r <- be_irfft be S_1_hat ;;
           Ok (mk_path S_1_r [j1] [n1])
         else Ok (mk_path U_1_m [j1] [n1])) ;;
  ps <- (match psi2s with
         | Some psi2 => mapM (order2 phi U_1_hat n1 j1 k1 log2_stride average_local) (enumerate psi2)
         | None => Ok []
         end) ;;
  Ok (p1 :: concat ps).

(** scattering1d.py:2-107.  [filters = [phi, psi1, psi2][:1+max_order]] is modelled by [phi] and the list
    [psis] of the wavelet filterbanks kept by the slice; [filters[1]] raises IndexError when it is empty. *)
Definition scattering1d (U_0 : X) (phi : filter W P) (psis : list (list (filter W P)))
    (log2_stride : Z) (average_local : bool) : res (list (path X)) :=
  U_0_hat <- be_rfft be U_0 ;;
  p0 <- order0 phi U_0 U_0_hat log2_stride average_local ;;
  psi1 <- py_index psis 0 ;;
  let psi2s := nth_error psis 1 in
  ps <- mapM (order1 phi psi2s U_0_hat log2_stride average_local) (enumerate psi1) ;;
  Ok (p0 :: concat ps).
End Core.
