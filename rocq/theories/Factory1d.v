(** Model of scattering_filter_factory (kymatio/scattering1d/filter_bank.py) and of the constructor of
    Scattering1D, parametric in the numerical formulas of the filters (given in FilterBank1d.v). *)
From Coq Require Import ZArith List Bool QArith String Arith.
From Verif Require Import Base NdArray Backend Core1d Utils1d Frontend1d.
Import ListNotations.
Local Open Scope Z_scope.
Local Open Scope res_scope.

(** The numerical ingredients: the filterbank generator (J, Q) -> [(xi, sigma)], get_max_dyadic_subsampling,
    morlet_1d, gauss_1d, [sigma0/T], [xi < 0.5/2**j] and [xi1 > xi2]. *)
Record formulas (K P : Type) := {
  fo_bank : Z -> Z -> list (P * P);
  fo_j : P -> P -> Z;
  fo_morlet : nat -> P -> P -> nd K;
  fo_gauss : nat -> P -> nd K;
  fo_sigma_low : Q -> P;
  fo_xi0 : P;
  fo_below_nyquist : P -> Z -> bool;
  fo_gt : P -> P -> bool
}.
Arguments fo_bank {K P}. Arguments fo_j {K P}. Arguments fo_morlet {K P}. Arguments fo_gauss {K P}.
Arguments fo_sigma_low {K P}. Arguments fo_xi0 {K P}. Arguments fo_below_nyquist {K P}. Arguments fo_gt {K P}.

Section Factory.
Context {K P : Type} (o : ops K) (F : formulas K P).
Notation filter := (filter (nd K) P).

(** filter_bank.py:379-381, 395-397: [full.reshape(2**level, -1)] then [np.sum(..., axis=0)], for a 1-D
    array.  reshape raises ValueError when 2**level does not divide the length. *)
Definition reduce_level (full : nd K) (level : Z) : res (nd K) :=
  let n := prod (nd_shape full) in
  let k := Z.to_nat (2 ^ level) in
  if Nat.eqb (k * (n / k)) n
  then Ok (mk_nd (nd_dtype full) [(n / k)%nat] (periodize_sum_row o k (n / k) (nd_data full)))
  else Err ValueError.

(** The loops of filter_bank.py:378-382 and 394-398: levels [0 .. stop-1]. *)
Definition levels_upto (full : nd K) (stop : Z) : res (list (nd K)) :=
  ls <- mapM (reduce_level full) (zrange 1 stop) ;; Ok (full :: ls).

(** filter_bank.py:369-383: one wavelet. *)
Definition make_psi (N : nat) (log2_T previous_J : Z) (xs : P * P) : res filter :=
  let (xi, sigma) := xs in
  let j := fo_j F xi sigma in
  levels <- levels_upto (fo_morlet F N xi sigma) (Z.min (Z.min previous_J j) (1 + log2_T)) ;;
  Ok (mk_filter levels xi sigma j (Z.of_nat N)).

(** filter_bank.py:384: [max_j = max(j, max_j)] along the layer. *)
Definition upd_max_j (max_j : Z) (psis : list filter) : Z :=
  fold_left (fun m f => Z.max (f_j f) m) psis max_j.

(** filter_bank.py:365-388: loop over the layers; [max_j] is not reset between layers.  A float Q
    makes the generator raise TypeError in [range(Q-1)].  Returns the filterbanks and previous_J. *)
Fixpoint make_layers (N : nat) (J log2_T : Z) (Qs : list qnum) (max_j previous_J : Z)
    : res (list (list filter) * Z) :=
  match Qs with
  | [] => Ok ([], previous_J)
  | QF _ :: _ => Err TypeError
  | QI q :: Qs' =>
      psis <- mapM (make_psi N log2_T previous_J) (fo_bank F J q) ;;
      let max_j := upd_max_j max_j psis in
      '(rest, pj) <- make_layers N J log2_T Qs' max_j max_j ;;
      Ok (psis :: rest, pj)
  end.

(** filter_bank.py:322-404 scattering_filter_factory.  [log2_T] is the exact floor(log2 T). *)
Definition filter_factory (N : nat) (J : Z) (Qs : list qnum) (T : Q) (log2_T : Z)
    : res (filter * list (list filter)) :=
  '(psis, previous_J) <- make_layers N J log2_T Qs 0 0 ;;
  let sigma_low := fo_sigma_low F T in
  levels <- levels_upto (fo_gauss F N sigma_low) (Z.max previous_J (1 + log2_T)) ;;
  Ok (mk_filter levels (fo_xi0 F) sigma_low log2_T (Z.of_nat N), psis).

(** kymatio/frontend/base_frontend.py:17-30 _check_filterbanks. *)
Definition check_filterbanks (psi1s psi2s : list filter) : res unit :=
  if forallb (fun f1 => fo_below_nyquist F (f_xi f1) (f_j f1)) psi1s then
    if forallb (fun fs => fo_gt F (f_xi (fst fs)) (f_xi (snd fs)))
         (List.filter (fun fs => f_j (fst fs) <? f_j (snd fs)) (list_prod psi1s psi2s))
    then Ok tt else Err AssertionError
  else Err AssertionError.

(** ScatteringNumPy1D.__init__ (kymatio/scattering1d/frontend/numpy_frontend.py:7-16): build (base_frontend.py:37-98)
    then create_filters (base_frontend.py:100-104).  [support] is the arbitrary support estimate of [build]. *)
Definition new_scattering1d (support : Z -> Q -> Z) (p : params) (out_type : string)
    : res (scat1d (nd K) P) :=
  b <- build support p ;;
  Qs <- Q_of (p_Q p) ;;
  T <- T_of (p_T p) (p_J p) (b_N b) ;;
  l2T <- log2_T_of (p_T p) (p_J p) (b_N b) ;;
  '(phi, psis) <- filter_factory (Z.to_nat (b_Npad b)) (p_J p) Qs T l2T ;;
  match psis with
  | [psi1s; psi2s] =>
      _ <- check_filterbanks psi1s psi2s ;;
      Ok {| s_phi := phi; s_psi1 := psi1s; s_psi2 := psi2s; s_max_order := p_max_order p;
            s_out_type := out_type; s_oversampling := p_oversampling p;
            s_pad_left := b_left b; s_pad_right := b_right b;
            s_ind_start := b_start b; s_ind_end := b_end b;
            s_log2_stride := log2_stride_of (b_stride b) (p_T p) (p_J p) (b_N b);
            s_average := average_of (p_T p) (p_J p) (b_N b) |}
  | _ => Err ValueError               (* tuple unpacking; Q always has two entries *)
  end.
End Factory.
