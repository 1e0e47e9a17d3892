(** Model of kymatio/scattering1d/core/timefrequency_scattering.py, polymorphic in the backend. *)
From Coq Require Import String ZArith List Bool.
From Verif Require Import Base NdArray Backend Core1d Utils1d.
Import ListNotations.
Local Open Scope Z_scope.
Local Open Scope res_scope.

(** A dictionary {'coef', 'j', 'n', 'n1_max'} yielded by time_scattering_widthfirst at orders 1 and 2.  The
    placeholder -1 at the head of 'n' is left out: [w_n] is [n[1:]]. *)
Record wpath (X : Type) := mk_wpath { w_coef : X; w_j : list Z; w_n : list nat; w_n1_max : Z }.
Arguments mk_wpath {X}. Arguments w_coef {X}. Arguments w_j {X}. Arguments w_n {X}. Arguments w_n1_max {X}.

(** A dictionary of order 1 or 2 from frequency_scattering on.  'j_fr' and 'n_fr' are 1-tuples in the code.
    'order' is set by the formatting stage.  time_formatting deletes the keys 'n1_max' and 'n1_stride'; the
    fields are kept here. *)
Record jpath (X : Type) := mk_jpath {
  q_coef : X; q_j : list Z; q_n : list nat; q_n1_max : Z; q_n1_stride : pynum;
  q_j_fr : Z; q_n_fr : nat; q_spin : Z; q_order : nat
}.
Arguments mk_jpath {X}. Arguments q_coef {X}. Arguments q_j {X}. Arguments q_n {X}. Arguments q_n1_max {X}.
Arguments q_n1_stride {X}. Arguments q_j_fr {X}. Arguments q_n_fr {X}. Arguments q_spin {X}. Arguments q_order {X}.

(** {**path, 'coef': c}. *)
Definition set_coef {X Y} (c : Y) (p : jpath X) : jpath Y :=
  mk_jpath c (q_j p) (q_n p) (q_n1_max p) (q_n1_stride p) (q_j_fr p) (q_n_fr p) (q_spin p) (q_order p).
Definition set_stride {X} (s : pynum) (p : jpath X) : jpath X :=
  mk_jpath (q_coef p) (q_j p) (q_n p) (q_n1_max p) s (q_j_fr p) (q_n_fr p) (q_spin p) (q_order p).
Definition set_order {X} (k : nat) (p : jpath X) : jpath X :=
  mk_jpath (q_coef p) (q_j p) (q_n p) (q_n1_max p) (q_n1_stride p) (q_j_fr p) (q_n_fr p) (q_spin p) k.
Definition set_n {X} (n : list nat) (p : jpath X) : jpath X :=
  mk_jpath (q_coef p) (q_j p) n (q_n1_max p) (q_n1_stride p) (q_j_fr p) (q_n_fr p) (q_spin p) (q_order p).

(** Python [range(0, n, s)]: a zero step raises ValueError, a float step TypeError; with a negative step and
    [n >= 0] the range is empty. *)
Definition range_step (n : Z) (s : pynum) : res (list Z) :=
  match s with
  | PFloat => Err TypeError
  | PInt s =>
      if s =? 0 then Err ValueError
      else if s <? 0 then Ok []
      else Ok (map (fun i => Z.of_nat i * s) (seq 0 (Z.to_nat ((n + s - 1) / s))))
  end.

Section Jtfs.
Context {X W P : Type} (be : backend X W).
(** [np.sign(xi)], as -1, 0 or 1. *)
Variable (sgn : P -> Z).

(** timefrequency_scattering.py:130-153: body of the loop over n1; returns U_1_hat with its 'j', and S_1_r. *)
Definition width1 (phi : filter W P) (U_0_hat : X) (log2_stride : Z) (average_local : bool)
    (psi1 : filter W P) : res (X * Z * X) :=
  let j1 := f_j psi1 in
  let k1 := if average_local then Z.min j1 log2_stride else j1 in
  U_1_m <- order1_modulus be U_0_hat psi1 k1 ;;
  U_1_hat <- be_rfft be U_1_m ;;
  let k1_J := log2_stride - k1 in
  lp <- py_index (f_levels phi) k1 ;;
  S_1_c <- be_cdgmm be U_1_hat lp ;;
  S_1_hat <- be_subsample be S_1_c (pow2 k1_J) ;;
  S_1_r <- be_irfft be S_1_hat ;;
  Ok (U_1_hat, j1, S_1_r).

(** timefrequency_scattering.py:170-179: body of the loop over U_1_hats (empty list when j2 <= j1). *)
Definition width2 (psi2 : filter W P) (log2_stride : Z) (average_local : bool) (u : X * Z) : res (list X) :=
  let (U_1_hat, j1) := u in
  let j2 := f_j psi2 in
  let k1 := if average_local then Z.min j1 log2_stride else j1 in
  if j1 <? j2 then
    let k2 := if average_local then Z.min (j2 - k1) log2_stride else j2 - k1 in
    l2 <- py_index (f_levels psi2) k1 ;;
    U_2_c <- be_cdgmm be U_1_hat l2 ;;
    U_2_hat <- be_subsample be U_2_c (pow2 k2) ;;
    U_2_c <- be_ifft be U_2_hat ;;
    Ok [U_2_c]
  else Ok [].

(** timefrequency_scattering.py:166-189: body of the loop over n2. *)
Definition width2_all (U_1_hats : list (X * Z)) (log2_stride : Z) (average_local : bool)
    (np2 : nat * filter W P) : res (list (wpath X)) :=
  let (n2, psi2) := np2 in
  ys <- mapM (width2 psi2 log2_stride average_local) U_1_hats ;;
  let Y_2_list := concat ys in
  if Nat.ltb 0 (List.length Y_2_list) then
    Y_2 <- be_stack be Y_2_list 2 ;;
    Ok [mk_wpath Y_2 [-1; f_j psi2] [n2] (Z.of_nat (List.length Y_2_list))]
  else Ok [].

(** timefrequency_scattering.py:84-189 time_scattering_widthfirst: the three stages of the generator. *)
Definition widthfirst (U_0 : X) (phi : filter W P) (psi1 psi2 : list (filter W P)) (log2_stride : Z)
    (average_local : bool) : res (path X * wpath X * list (wpath X)) :=
  U_0_hat <- be_rfft be U_0 ;;
  p0 <- order0 be phi U_0 U_0_hat log2_stride average_local ;;
  l1 <- mapM (width1 phi U_0_hat log2_stride average_local) psi1 ;;
  S_1 <- be_stack be (map snd l1) 2 ;;
  ys <- mapM (width2_all (map fst l1) log2_stride average_local) (enumerate psi2) ;;
  Ok (p0, mk_wpath S_1 [-1] [] (Z.of_nat (List.length l1)), concat ys).

(** timefrequency_scattering.py:256-275: body of the loop over n_fr. *)
Definition freq1 (wp : wpath X) (X_hat : X) (log2_stride_fr : Z) (average_local_fr : bool)
    (npsi : nat * filter W P) : res (jpath X) :=
  let (n_fr, psi) := npsi in
  let j_fr := f_j psi in
  let k_fr := if average_local_fr then Z.min j_fr log2_stride_fr else j_fr in
  l <- py_index (f_levels psi) 0 ;;
  Y_fr_hat <- be_cdgmm be X_hat l ;;
  Y_fr_sub <- be_subsample be Y_fr_hat (pow2 k_fr) ;;
  Y_fr <- be_ifft be Y_fr_sub ;;
  Y_fr <- be_swap be Y_fr ;;
  Ok (mk_jpath Y_fr (w_j wp) (w_n wp ++ [n_fr]) (w_n1_max wp) (pow2 j_fr) j_fr n_fr (sgn (f_xi psi)) 0).

(** timefrequency_scattering.py:192-275 frequency_scattering.  [filters_fr = (phi, psis)]. *)
Definition frequency_scattering (phi : filter W P) (psis : list (filter W P)) (log2_stride_fr : Z)
    (average_local_fr spinned : bool) (wp : wpath X) : res (list (jpath X)) :=
  X_T <- be_swap be (w_coef wp) ;;
  let pad_right := f_N phi - w_n1_max wp in
  X_pad <- be_pad_frequency be X_T pad_right ;;
  X_hat <- (if spinned then be_cfft be X_pad else be_rfft be X_pad) ;;
  let psis := if spinned then psis else List.filter (fun psi => 0 <=? sgn (f_xi psi)) psis in
  mapM (freq1 wp X_hat log2_stride_fr average_local_fr) (enumerate psis).

(** timefrequency_scattering.py:4-81 joint_timefrequency_scattering: the zeroth-order path and the others. *)
Definition joint_scattering (U_0 : X) (phi : filter W P) (psi1 psi2 : list (filter W P)) (log2_stride : Z)
    (average_local : bool) (phi_fr : filter W P) (psis_fr : list (filter W P)) (log2_stride_fr : Z)
    (average_local_fr : bool) : res (path X * list (jpath X)) :=
  '(p0, S_1, Y_2s) <- widthfirst U_0 phi psi1 psi2 log2_stride average_local ;;
  first <- frequency_scattering phi_fr psis_fr log2_stride_fr average_local_fr false S_1 ;;
  second <- mapM (frequency_scattering phi_fr psis_fr log2_stride_fr average_local_fr true) Y_2s ;;
  Ok (p0, first ++ concat second).

(** timefrequency_scattering.py:278-315 time_averaging. *)
Definition time_averaging (phi : filter W P) (log2_stride : Z) (p : jpath X) : res (jpath X) :=
  k_in <- py_index (q_j p) (-1) ;;
  let k_J := log2_stride - k_in in
  U_hat <- be_rfft be (q_coef p) ;;
  lp <- py_index (f_levels phi) k_in ;;
  S_c <- be_cdgmm be U_hat lp ;;
  S_hat <- be_subsample be S_c (pow2 k_J) ;;
  S_2 <- be_irfft be S_hat ;;
  Ok (set_coef S_2 p).

(** timefrequency_scattering.py:318-373 frequency_averaging. *)
Definition frequency_averaging (phi_fr : filter W P) (log2_stride_fr : Z) (average_fr : avg) (p : jpath X)
    : res (jpath X) :=
  match average_fr with
  | NoAvg => Ok (set_stride (pow2 (Z.max (q_j_fr p) 0)) p)
  | Global =>
      U_2_T <- be_swap be (q_coef p) ;;
      S_2_T <- be_average_global be U_2_T ;;
      S_2 <- be_swap be S_2_T ;;
      Ok (set_stride (PInt (q_n1_max p)) (set_coef S_2 p))
  | Local =>
      let log2_F := f_j phi_fr in
      U_2_T <- be_swap be (q_coef p) ;;
      let k_in := Z.min (q_j_fr p) log2_F in
      let k_J := log2_stride_fr - k_in in
      U_hat <- be_rfft be U_2_T ;;
      lp <- py_index (f_levels phi_fr) k_in ;;
      S_c <- be_cdgmm be U_hat lp ;;
      S_hat <- be_subsample be S_c (pow2 k_J) ;;
      S_2_T <- be_irfft be S_hat ;;
      S_2 <- be_swap be S_2_T ;;
      Ok (set_stride (pow2 log2_stride_fr) (set_coef S_2 p))
  end.

(** timefrequency_scattering.py:376-392 time_formatting.  [is_none] is the test [coef is None], true exactly
    with the dry backend. *)
Definition time_formatting (is_none : bool) (p : jpath X) : res (list (jpath X)) :=
  coef_list <- (if is_none then
                  match q_n1_stride p with
                  | PFloat => Err TypeError
                  | PInt s => if s =? 0 then Err ZeroDivisionError
                              else Ok (repeat (q_coef p) (Z.to_nat (1 + q_n1_max p / s)))
                  end
                else be_split_frequency be (q_coef p)) ;;
  n1s <- range_step (q_n1_max p) (q_n1_stride p) ;;
  mapM (fun c : nat * Z =>
          let (i, n1) := c in
          coef <- py_index coef_list (Z.of_nat i) ;;
          Ok (set_n (Z.to_nat n1 :: q_n p) (set_order (List.length (q_n p) - 1) (set_coef coef p))))
       (enumerate n1s).

(** timefrequency_scattering.py:401-444: one path of order 1 or 2 through modulus, averaging, unpadding and
    formatting. *)
Definition format_path (is_none : bool) (phi : filter W P) (log2_stride : Z) (average : avg)
    (phi_fr : filter W P) (log2_stride_fr : Z) (average_fr : avg) (out_type format : string) (p : jpath X)
    : res (list (jpath X)) :=
  c <- be_modulus be (q_coef p) ;;
  let p := set_coef c p in
  p <- (match average with
        | Global => c <- be_average_global be (q_coef p) ;; Ok (set_coef c p)
        | Local => if Nat.ltb 1 (List.length (q_n p)) then time_averaging phi log2_stride p else Ok p
        | NoAvg => Ok p
        end) ;;
  p <- (match average_fr with
        | NoAvg => Ok p
        | _ => if q_spin p =? 0 then Ok p else frequency_averaging phi_fr log2_stride_fr average_fr p
        end) ;;
  p <- (if String.eqb out_type "array" && String.eqb format "joint" then Ok p
        else c <- be_unpad_frequency be (q_coef p) (q_n1_max p) (q_n1_stride p) ;; Ok (set_coef c p)) ;;
  if String.eqb format "joint" then Ok [set_order (List.length (q_n p)) p]
  else if String.eqb format "time" then time_formatting is_none p
  else Ok [].

(** timefrequency_scattering.py:395-444 jtfs_average_and_format. *)
Definition average_and_format (is_none : bool) (phi : filter W P) (log2_stride : Z) (average : avg)
    (phi_fr : filter W P) (log2_stride_fr : Z) (average_fr : avg) (out_type format : string)
    (U_gen : path X * list (jpath X)) : res (path X * list (jpath X)) :=
  let (p0, ps) := U_gen in
  p0 <- (match average with
         | Global => c <- be_average_global be (p_coef p0) ;; Ok (mk_path c (p_j p0) (p_n p0))
         | _ => Ok p0
         end) ;;
  l <- mapM (format_path is_none phi log2_stride average phi_fr log2_stride_fr average_fr out_type format) ps ;;
  Ok (p0, concat l).
End Jtfs.
