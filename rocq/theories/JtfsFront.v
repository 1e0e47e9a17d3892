(** Model of TimeFrequencyScatteringBase (kymatio/scattering1d/frontend/base_frontend.py:525-755) and of the
    constructor of its NumPy frontend. *)
From Coq Require Import String ZArith List Bool QArith Qround Qminmax.
From Verif Require Import Base NdArray Backend Core1d Utils1d Frontend1d Factory1d Jtfs.
Import ListNotations.
Local Open Scope Z_scope.
Local Open Scope res_scope.

(** The attributes read by scattering() and meta().  The averages and strides are properties that may
    raise.  [t_base] holds the attributes inherited from ScatteringBase1D. *)
Record jtfs (W P : Type) := {
  t_base : scat1d W P;
  t_phi_fr : filter W P; t_psis_fr : list (filter W P);       (* filters_fr *)
  t_log2_stride_fr : res Z; t_average_fr : res avg;
  t_format : string
}.
Arguments t_base {W P}. Arguments t_phi_fr {W P}. Arguments t_psis_fr {W P}. Arguments t_log2_stride_fr {W P}.
Arguments t_average_fr {W P}. Arguments t_format {W P}.

Definition is_none_avg (a : avg) : bool := match a with NoAvg => true | _ => false end.
Definition is_local_avg (a : avg) : bool := match a with Local => true | _ => false end.

(** base_frontend.py:697-716 _check_runtime_args (oversampling_fr is always 0). *)
Definition jcheck_runtime_args {W P} (s : jtfs W P) : res unit :=
  _ <- check_runtime_args (t_base s) ;;
  _ <- (if String.eqb (t_format s) "joint"%string then
          a <- t_average_fr s ;;
          raise_if (is_none_avg a && String.eqb (s_out_type (t_base s)) "array"%string) ValueError
        else Ok tt) ;;
  raise_if (negb (String.eqb (t_format s) "time"%string || String.eqb (t_format s) "joint"%string)) ValueError.

Inductive joutput (X : Type) :=
| JArray (x : X)
| JList (p0 : path X) (l : list (jpath X))      (* zeroth order, then orders 1 and 2 *)
| JDict (d : list (list nat * X)).
Arguments JArray {X}. Arguments JList {X}. Arguments JDict {X}.

Section Run.
Context {X W P : Type} (be : backend X W) (sgn : P -> Z).

(** base_frontend.py:603-610: the zeroth-order path. *)
Definition jfinish0 (s : jtfs W P) (a : avg) (batch_shape : list nat) (p : path X) : res (path X) :=
  c <- (match a with
        | Global => Ok (p_coef p)
        | _ => resol <- (match a with NoAvg => Ok 0 | _ => s_log2_stride (t_base s) end) ;;
               i0 <- dict_get (s_ind_start (t_base s)) resol ;;
               i1 <- dict_get (s_ind_end (t_base s)) resol ;;
               be_unpad be (p_coef p) i0 i1
        end) ;;
  c <- be_reshape_output be c batch_shape 1 ;;
  Ok (mk_path c (p_j p) (p_n p)).

(** base_frontend.py:613-633: a path of order 1 or 2. *)
Definition jfinish (s : jtfs W P) (a : avg) (batch_shape : list nat) (p : jpath X) : res (jpath X) :=
  c <- (match a with
        | Global => Ok (q_coef p)
        | _ => resol <- (if is_none_avg a && Nat.ltb 1 (List.length (q_n p)) then
                         j <- py_index (q_j p) (-1) ;; Ok (Z.max j 0)
                       else l <- s_log2_stride (t_base s) ;; Ok (Z.max l 0)) ;;
               i0 <- dict_get (s_ind_start (t_base s)) resol ;;
               i1 <- dict_get (s_ind_end (t_base s)) resol ;;
               be_unpad be (q_coef p) i0 i1
        end) ;;
  c <- be_reshape_output be c batch_shape (if String.eqb (t_format s) "joint"%string then 2 else 1)%nat ;;
  Ok (set_coef c p).

(** base_frontend.py:584-633: scattering() up to the list S of all paths (the zeroth-order one apart). *)
Definition jpaths (s : jtfs W P) (x : X) : res (path X * list (jpath X)) :=
  let b := t_base s in
  _ <- jcheck_runtime_args s ;;
  _ <- check_input (be_shape be x) ;;
  '(batch_shape, n) <- split_last (be_shape be x) ;;
  x <- be_reshape_input be x [n] ;;
  U_0 <- be_pad be x (s_pad_left b) (s_pad_right b) ;;
  log2_stride <- s_log2_stride b ;;
  a <- s_average b ;;
  log2_stride_fr <- t_log2_stride_fr s ;;
  a_fr <- t_average_fr s ;;
  U_gen <- joint_scattering be sgn U_0 (s_phi b) (s_psi1 b) (s_psi2 b) log2_stride (is_local_avg a)
             (t_phi_fr s) (t_psis_fr s) log2_stride_fr (is_local_avg a_fr) ;;
  '(p0, ps) <- average_and_format be false (s_phi b) log2_stride a (t_phi_fr s) log2_stride_fr a_fr
                 (s_out_type b) (t_format s) U_gen ;;
  p0 <- jfinish0 s a batch_shape p0 ;;
  S <- mapM (jfinish s a batch_shape) ps ;;
  Ok (p0, S).
(** base_frontend.py:635-648: the requested container. *)
Definition jcontainer (s : jtfs W P) (p0 : path X) (S : list (jpath X)) : res (joutput X) :=
  if String.eqb (s_out_type (t_base s)) "array"%string then
    if String.eqb (t_format s) "joint"%string then
      arr <- be_stack be (map q_coef S) (-3) ;; Ok (JArray arr)
    else arr <- be_stack be (p_coef p0 :: map q_coef S) (-2) ;; Ok (JArray arr)
  else if String.eqb (s_out_type (t_base s)) "dict"%string then
    Ok (JDict (fold_left (fun d p => dict_set (q_n p) (q_coef p) d) S (dict_set (p_n p0) (p_coef p0) [])))
  else Ok (JList p0 S).
(** base_frontend.py:584-648 scattering. *)
Definition jtfs_scattering (s : jtfs W P) (x : X) : res (joutput X) :=
  '(p0, ps) <- jpaths s x ;; jcontainer s p0 ps.
End Run.

(** ** meta() *)
(** A cell of meta['n']: NaN, an index, or a range of indices n1. *)
Inductive mcell := CNan | CIdx (n : nat) | CRange (l : list Z).
Record jmeta (P : Type) := {
  jm_key : list (list nat);
  jm_n : list (list mcell);
  jm_n_fr : list (option nat);
  jm_order : list nat;
  jm_xi : list (list (option P)); jm_sigma : list (list (option P)); jm_j : list (list (option Z));
  jm_xi_fr : list (option P); jm_sigma_fr : list (option P); jm_j_fr : list (option Z);
  jm_spin : list (option Z)
}.
Arguments jm_key {P}. Arguments jm_n {P}. Arguments jm_n_fr {P}. Arguments jm_order {P}. Arguments jm_xi {P}.
Arguments jm_sigma {P}. Arguments jm_j {P}. Arguments jm_xi_fr {P}. Arguments jm_sigma_fr {P}.
Arguments jm_j_fr {P}. Arguments jm_spin {P}.

(** base_frontend.py:663-682: the row of meta['n'] of a path of order 1 or 2. *)
Definition meta_cells (format : string) (p : jpath unit) : res (list mcell) :=
  match q_n p with
  | [_] => r <- range_step (q_n1_max p) (q_n1_stride p) ;; Ok [CRange r; CNan]
  | [a; _] => if String.eqb format "joint"%string
              then r <- range_step (q_n1_max p) (q_n1_stride p) ;; Ok [CRange r; CIdx a]
              else Ok [CIdx a; CNan]
  | [a; b; _] => if String.eqb format "time"%string then Ok [CIdx a; CIdx b] else Ok []
  | _ => Ok []
  end.

(** base_frontend.py:686-690: the cells of meta[key] on one row; comparing a range or NaN with an index is
    False, so only index cells are filled.  meta[key] starts as NaN. *)
Definition meta_lookup {W P B} (get : filter W P -> B) (bank : list (filter W P)) (c : mcell) : option B :=
  match c with CIdx n => option_map get (nth_error bank n) | _ => None end.
(** base_frontend.py:691-693: meta[key + '_fr'] on one row. *)
Definition meta_lookup_fr {W P B} (get : filter W P -> B) (bank : list (filter W P)) (c : option nat) : option B :=
  match c with Some n => option_map get (nth_error bank n) | None => None end.

(** base_frontend.py:650-695 meta.  The loops over the filters fill the cells one wavelet at a time; since the
    indices of a filterbank are distinct a cell receives the value of the wavelet it names, which is what
    [meta_lookup] says. *)
Definition jtfs_meta {W P} (sgn : P -> Z) (s : jtfs W P) : res (jmeta P) :=
  let b := t_base s in
  log2_stride <- s_log2_stride b ;;
  a <- s_average b ;;
  log2_stride_fr <- t_log2_stride_fr s ;;
  a_fr <- t_average_fr s ;;
  U_gen <- joint_scattering (dry_backend W) sgn tt (s_phi b) (s_psi1 b) (s_psi2 b) log2_stride (is_local_avg a)
             (t_phi_fr s) (t_psis_fr s) log2_stride_fr (is_local_avg a_fr) ;;
  '(p0, ps) <- average_and_format (dry_backend W) true (s_phi b) log2_stride a (t_phi_fr s) log2_stride_fr a_fr
                 (s_out_type b) (t_format s) U_gen ;;
  (* sorted(S, key=(len(n), n)): the zeroth-order path, of empty n, comes first *)
  let ps := isort (fun p q => key_leb (q_n p) (q_n q)) ps in
  cells <- mapM (meta_cells (t_format s)) ps ;;
  let skip0 := String.eqb (t_format s) "joint"%string && String.eqb (s_out_type b) "array"%string in
  let ns := (if skip0 then [] else [[CNan; CNan]]) ++ cells in
  let n_frs := (if skip0 then [] else [None]) ++ map (fun p => Some (q_n_fr p)) ps in
  let row {B} (get : filter W P -> B) (r : list mcell) : list (option B) :=
    map (fun c : mcell * list (filter W P) => meta_lookup get (snd c) (fst c)) (combine r [s_psi1 b; s_psi2 b]) in
  let xi_fr := map (meta_lookup_fr f_xi (t_psis_fr s)) n_frs in
  Ok {| jm_key := p_n p0 :: map q_n ps;
        jm_n := ns; jm_n_fr := n_frs;
        jm_order := (if skip0 then [] else [0%nat]) ++
          map (fun p => (List.length (q_n p) - (if String.eqb (t_format s) "time"%string then 1 else 0))%nat) ps;
        jm_xi := map (row f_xi) ns; jm_sigma := map (row f_sigma) ns; jm_j := map (row f_j) ns;
        jm_xi_fr := xi_fr; jm_sigma_fr := map (meta_lookup_fr f_sigma (t_psis_fr s)) n_frs;
        jm_j_fr := map (meta_lookup_fr f_j (t_psis_fr s)) n_frs;
        jm_spin := map (option_map sgn) xi_fr |}.

(** ** Construction *)
(** The user parameters of TimeFrequencyScattering besides those of Scattering1D.  [F] is an integer or one of
    the special values (a float [F] would make the padded length a float; not modelled). *)
Record jparams := mk_jparams {
  jp_base : params; jp_J_fr : Z; jp_Q_fr : qval; jp_F : tval; jp_stride_fr : sval; jp_format : string
}.

(** base_frontend.py:546-556: the check of Q_fr. *)
Definition Q_fr_of (v : qval) : res qnum :=
  if existsb (fun q => Qltb q 1) (qval_entries v) then Err ValueError
  else match v with
       | QInt z => Ok (QI z)
       | QTuple [a] => Ok a
       | QTuple _ => Err NotImplementedError
       | _ => Err ValueError
       end.

(** base_frontend.py:559-570: the padded number of frequency bins (oversampling_fr = 0). *)
Definition N_padded_fr_of (N_input_fr J_fr : Z) (F : Q) : Z :=
  let min_to_pad_fr := (8 * Qmin F (Qpower 2 J_fr))%Q in
  let K_fr := Z.max J_fr 0 in
  Qfloor ((inject_Z N_input_fr + min_to_pad_fr) / inject_Z (2 ^ K_fr)) * 2 ^ K_fr.

Section New.
Context {K P : Type} (o : ops K) (F1 Ffr : formulas K P).

(** base_frontend.py:572-582 create_filters.  [fo_below_nyquist Ffr] compares the absolute value of xi.  With
    no frequency bin at all the inverse FFT inside gauss_1d raises ValueError. *)
Definition create_filters_fr (N_fr J_fr : Z) (Q_fr : qnum) (F : Q)
    : res (filter (nd K) P * list (filter (nd K) P)) :=
  if N_fr <=? 0 then Err ValueError else
  '(phi0, _) <- filter_factory o Ffr (Z.to_nat N_fr) J_fr [] F (log2_floor F J_fr) ;;
  '(phi1, psis) <- filter_factory o Ffr (Z.to_nat N_fr) J_fr [Q_fr] (Qpower 2 J_fr)
                     (log2_floor (Qpower 2 J_fr) J_fr) ;;
  match psis with
  | [psis] =>
      if forallb (fun f => fo_below_nyquist Ffr (f_xi f) (f_j f)) psis
      then Ok (phi0, phi1 :: psis) else Err AssertionError
  | _ => Err ValueError
  end.

(** kymatio/scattering1d/frontend/numpy_frontend.py:20-33 and base_frontend.py:525-582.  max_order is 2 and
    oversampling is None. *)
Definition new_jtfs (support : Z -> Q -> Z) (p : jparams) (out_type : string) : res (jtfs (nd K) P) :=
  let pb := jp_base p in
  let pb := {| p_J := p_J pb; p_shape := p_shape pb; p_Q := p_Q pb; p_T := p_T pb; p_stride := p_stride pb;
               p_max_order := 2; p_oversampling := ONone |} in
  base <- new_scattering1d o F1 support pb out_type ;;
  Q_fr <- Q_fr_of (jp_Q_fr p) ;;
  Qs <- Q_of (p_Q pb) ;;
  q0 <- (match Qs with QI q :: _ => Ok q | _ => Err TypeError end) ;;
  let N_input_fr := (p_J pb + 1) * q0 in
  F <- T_of (jp_F p) (jp_J_fr p) N_input_fr ;;
  '(phi_fr, psis_fr) <- create_filters_fr (N_padded_fr_of N_input_fr (jp_J_fr p) F) (jp_J_fr p) Q_fr F ;;
  Ok {| t_base := base; t_phi_fr := phi_fr; t_psis_fr := psis_fr;
        t_log2_stride_fr := log2_stride_of (jp_stride_fr p) (jp_F p) (jp_J_fr p) N_input_fr;
        t_average_fr := average_of (jp_F p) (jp_J_fr p) N_input_fr;
        t_format := jp_format p |}.
End New.
