(** Model of the formulas of kymatio/scattering1d/filter_bank.py over the real numbers (the code uses
    floating point). *)
From Coq Require Import Reals ZArith List Lia Lra QArith Qreals.
From Coquelicot Require Import Complex.
From Verif Require Import Base NdArray ComplexOps Utils1d Core1d Factory1d.
Import ListNotations.
Local Open Scope R_scope.

(** math.floor and math.ceil. *)
Definition Rfloor (x : R) : Z := Int_part x.
Definition Rceil (x : R) : Z := (- Int_part (- x))%Z.
Definition log2 (x : R) : R := ln x / ln 2.

(** filter_bank.py:6-48 adaptive_choice_P, eps = 1e-7. *)
Definition adaptive_choice_P (sigma : R) : Z :=
  let val := sqrt (-2 * sigma ^ 2 * ln (1 / 10000000)) in
  Rceil (val + 1).

(** numpy.fft.fftfreq(N)[i]. *)
Definition fftfreq (N i : nat) : R :=
  if Nat.ltb i ((N + 1) / 2) then INR i / INR N else (INR i - INR N) / INR N.

Fixpoint rsum (n : nat) (f : nat -> R) : R :=
  match n with O => 0 | S n' => rsum n' f + f n' end.

(** filter_bank.py:78 freqs[i] = ((1-P)*N + i) / N, for i < (2P-1)*N. *)
Definition freqs (P : Z) (N i : nat) : R := IZR ((1 - P) * Z.of_nat N + Z.of_nat i) / INR N.

(** [v.reshape(2*P-1, -1).mean(axis=0)] at index [i], [v] having (2P-1)*N entries. *)
Definition fold_mean (P : Z) (N : nat) (v : nat -> R) (i : nat) : R :=
  let K := Z.to_nat (2 * P - 1) in
  rsum K (fun p => v (p * N + i)%nat) / INR K.

(** filter_bank.py:75-97: the filter before normalisation; [xi = None] is the low-pass case, and so is
    [xi = 0] because of the truth test [if xi]. *)
Definition morlet_raw (N : nat) (xi : option R) (sigma : R) (i : nat) : R :=
  let P := Z.min (adaptive_choice_P sigma) 5 in
  let f_low := if Z.eqb P 1 then fftfreq N else freqs P N in
  let low := fold_mean P N (fun i => exp (- (f_low i ^ 2) / (2 * sigma ^ 2))) in
  let gabor x := fold_mean P N (fun i => exp (- ((freqs P N i - x) ^ 2) / (2 * sigma ^ 2))) in
  match xi with
  | Some x => if Req_EM_T x 0 then low i else gabor x i - gabor x 0%nat / low 0%nat * low i
  | None => low i
  end.

(** filter_bank.py:97 [np.abs(ifft(filter_f)).sum()]. *)
Definition l1_norm (N : nat) (f : nat -> R) : R :=
  rsum N (fun n => Cmod (idft_at N (fun k => RtoC (f k)) (Z.of_nat n))).

(** filter_bank.py:51-98 morlet_1d and 101-102 gauss_1d: a real array of length N.  If the normaliser
    vanishes the code divides by zero (inf/nan); real division by zero is arbitrary here. *)
Definition morlet_at (N : nat) (xi : option R) (sigma : R) (i : nat) : R :=
  morlet_raw N xi sigma i / l1_norm N (morlet_raw N xi sigma).
Definition morlet_1d (N : nat) (xi : option R) (sigma : R) : nd C :=
  mk_nd Real [N] (map (fun i => RtoC (morlet_at N xi sigma i)) (seq 0 N)).
Definition gauss_1d (N : nat) (sigma : R) : nd C := morlet_1d N None sigma.

(** filter_bank.py:105-139 compute_sigma_psi. *)
Definition compute_sigma_psi (xi : R) (Q : Z) (r : R) : R :=
  let factor := 1 / Rpower 2 (1 / IZR Q) in
  let term1 := (1 - factor) / (1 + factor) in
  let term2 := 1 / sqrt (2 * ln (1 / r)) in
  xi * term1 * term2.

(** filter_bank.py:199-233 get_max_dyadic_subsampling. *)
Definition get_max_dyadic_subsampling (xi sigma alpha : R) : Z :=
  let upper_bound := Rmin (Rabs xi + alpha * sigma) (1 / 2) in
  (Rfloor (- log2 upper_bound) - 1)%Z.

(** filter_bank.py:236-251 compute_xi_max. *)
Definition compute_xi_max (Q : Z) : R := Rmax (1 / (1 + Rpower 2 (3 / IZR Q))) (35 / 100).

(** filter_bank.py:300-303: the while loop, as a big-step relation: [geometric u smin xi sigma l] holds if the
    loop entered with (xi, sigma) terminates after yielding [l]. *)
Inductive geometric (u smin : R) : R -> R -> list (R * R) -> Prop :=
| geo_stop xi sigma : sigma <= smin * u -> geometric u smin xi sigma []
| geo_step xi sigma l : sigma > smin * u -> geometric u smin (xi / u) (sigma / u) l ->
    geometric u smin xi sigma ((xi / u, sigma / u) :: l).

(** filter_bank.py:305-309: the arithmetic progression; the k-th element (k = 1 .. Q-1) subtracts
    elbow_xi/Q k times. *)
Definition arithmetic (elbow_xi smin : R) (Q : Z) : list (R * R) :=
  map (fun q => (elbow_xi - INR (S q) * (1 / IZR Q * elbow_xi), smin)) (seq 0 (Z.to_nat (Q - 1))).

(** filter_bank.py:254-311 anden_generator, as a relation: [anden J Q sigma0 r_psi l] holds if the generator
    terminates and yields [l]. *)
Definition anden (J Q : Z) (sigma0 r_psi : R) (l : list (R * R)) : Prop :=
  let xi := compute_xi_max Q in
  let sigma := compute_sigma_psi xi Q r_psi in
  let smin := sigma0 / powerRZ 2 J in
  let u := Rpower 2 (1 / IZR Q) in
  (sigma <= smin /\ l = arithmetic sigma smin Q) \/
  (sigma > smin /\ exists g, geometric u smin xi sigma g /\
     l = ((xi, sigma) :: g) ++ arithmetic (fst (last ((xi, sigma) :: g) (0, 0))) smin Q).

(** The same loop as a function, with a bound on the number of iterations; [None] if it is exceeded. *)
Fixpoint geometric_fuel (fuel : nat) (u smin xi sigma : R) : option (list (R * R)) :=
  if Rle_dec sigma (smin * u) then Some []
  else match fuel with
       | O => None
       | S fuel' => option_map (cons (xi / u, sigma / u)) (geometric_fuel fuel' u smin (xi / u) (sigma / u))
       end.
(** anden_generator as a function ((J+1)*Q iterations always suffice, FilterBank1dProofs.v). *)
Definition anden_list (J Q : Z) (sigma0 r_psi : R) : list (R * R) :=
  let xi := compute_xi_max Q in
  let sigma := compute_sigma_psi xi Q r_psi in
  let smin := sigma0 / powerRZ 2 J in
  let u := Rpower 2 (1 / IZR Q) in
  if Rle_dec sigma smin then arithmetic sigma smin Q
  else match geometric_fuel (Z.to_nat ((J + 1) * Q)) u smin xi sigma with
       | Some g => ((xi, sigma) :: g) ++ arithmetic (fst (last ((xi, sigma) :: g) (0, 0))) smin Q
       | None => []
       end.

(** filter_bank.py:314-319 spin. *)
Definition spin (bank : list (R * R)) : list (R * R) :=
  bank ++ map (fun xs => (- fst xs, snd xs)) bank.

(** base_frontend.py:45-47: r_psi, sigma0, alpha. *)
Definition r_psi : R := sqrt (1 / 2).
Definition sigma0 : R := 1 / 10.
Definition alpha : R := 5.

(** The formulas used by Scattering1D. *)
Definition formulas1d : formulas C R := {|
  fo_bank := fun J q => anden_list J q sigma0 r_psi;
  fo_j := fun xi sigma => get_max_dyadic_subsampling xi sigma alpha;
  fo_morlet := fun N xi sigma => morlet_1d N (Some xi) sigma;
  fo_gauss := gauss_1d;
  fo_sigma_low := fun T => sigma0 / Q2R T;
  fo_xi0 := 0;
  fo_below_nyquist := fun xi j => if Rlt_dec xi (1 / 2 / powerRZ 2 j) then true else false;
  fo_gt := fun a b => if Rlt_dec b a then true else false
|}.
