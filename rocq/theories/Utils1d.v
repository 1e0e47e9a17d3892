(** Model of kymatio/scattering1d/utils.py and of the parameter handling of ScatteringBase1D
    (kymatio/scattering1d/frontend/base_frontend.py).  Integers are in Z. *)
From Coq Require Import ZArith List Bool QArith Qround.
From Verif Require Import Base.
Import ListNotations.
Local Open Scope Z_scope.
Local Open Scope res_scope.

(** kymatio/scattering1d/utils.py:41-68 compute_padding. *)
Definition compute_padding (N N_input : Z) : res (Z * Z) :=
  if N <? N_input then Err ValueError
  else
    let to_add := N - N_input in
    let pad_left := to_add / 2 in
    let pad_right := to_add - pad_left in
    if N_input <=? Z.max pad_left pad_right then Err ValueError
    else Ok (pad_left, pad_right).

(** utils.py:37-38, one loop iteration: [ind[j] = ind[j-1] // 2 + ind[j-1] % 2]. *)
Definition half_up (i : Z) : Z := i / 2 + i mod 2.

(** utils.py:4-39 compute_border_indices.  A dictionary with keys [0..m] is modelled by the list of
    its values in key order, [j] being the number of iterations of the loop already made. *)
Fixpoint border_list (n : nat) (i : Z) : list Z :=
  match n with
  | O => [i]
  | S n' => i :: border_list n' (half_up i)
  end.
(** Looking up a dictionary built by [compute_border_indices]; KeyError outside the keys. *)
Definition dict_get (d : list Z) (j : Z) : res Z :=
  if j <? 0 then Err KeyError
  else match nth_error d (Z.to_nat j) with Some v => Ok v | None => Err KeyError end.

Definition compute_border_indices (log2_T J i0 i1 : Z) : list Z * list Z :=
  let n := Z.to_nat (Z.max log2_T J) in
  (border_list n i0, border_list n i1).

(** The values a user may pass as [T] or [F]: None, the string 'global', another string, a number.
    Numbers are rationals (every finite float is one). *)
Inductive tval := TNone | TGlobal | TStr | TNum (q : Q).
Inductive avg := Local | Global | NoAvg.

Definition Qltb (a b : Q) : bool := negb (Qle_bool b a).

(** utils.py:71-108 parse_T.  [2**J] is a rational power so that a negative [J] is representable. *)
Definition parse_T (T : tval) (J N_input : Z) : res (Q * avg) :=
  match T with
  | TNone => Ok (Qpower 2 J, Local)
  | TGlobal => Ok (Qpower 2 J, Global)
  | TStr => Err TypeError                       (* str > int *)
  | TNum q =>
      if Qltb (inject_Z N_input) q then Err ValueError
      else if Qeq_bool q 0 then Ok (Qpower 2 J, NoAvg)
      else if Qltb q 1 then Err ValueError
      else Ok (q, Local)
  end.

(** Values a user may pass as [stride]: None, an integer, a float, anything else. *)
Inductive sval := SNone | SInt (z : Z) | SFloat (q : Q) | SOther.

(** base_frontend.py:247-249 (average), 297-299 (T). *)
Definition average_of (T : tval) (J N : Z) : res avg := r <- parse_T T J N ;; Ok (snd r).
Definition T_of (T : tval) (J N : Z) : res Q := r <- parse_T T J N ;; Ok (fst r).

(** base_frontend.py:272-274 log2_T = int(floor(log2(T))).  The logarithm is exact here (the code
    uses floating point).  For [T >= 1] this is [Z.log2 (floor T)]; [T] is below one only when [J] is
    negative, and then [T = 2**J]. *)
Definition log2_floor (q : Q) (J : Z) : Z :=
  if Qltb q 1 then J else Z.log2 (Qfloor q).
Definition log2_T_of (T : tval) (J N : Z) : res Z := q <- T_of T J N ;; Ok (log2_floor q J).

(** base_frontend.py:256-270 log2_stride.  [math.log2] of a non-positive integer raises ValueError. *)
Definition log2_stride_of (stride : sval) (T : tval) (J N : Z) : res Z :=
  match stride with
  | SNone => log2_T_of T J N
  | SFloat _ | SOther => Err ValueError
  | SInt s =>
      if s <=? 0 then Err ValueError
      else if negb (2 ^ (Z.log2 s) =? s) then Err ValueError
      else a <- average_of T J N ;;
           match a with
           | Local => Ok (Z.log2 s)
           | _ => Err ValueError
           end
  end.

(** base_frontend.py:293-295 stride. *)
Definition stride_of (stride : sval) (T : tval) (J N : Z) : res pynum :=
  l <- log2_stride_of stride T J N ;; Ok (pow2 l).

(** Values a user may pass as [Q]: an int, a tuple of numbers (ints or floats), a float, or
    something else for which numpy comparison still works (e.g. a list of numbers). *)
Inductive qnum := QI (z : Z) | QF (q : Q).
Inductive qval := QInt (z : Z) | QFloat (q : Q) | QTuple (l : list qnum) | QList (l : list qnum).
Definition qnum_val (x : qnum) : Q := match x with QI z => inject_Z z | QF q => q end.
Definition qval_entries (v : qval) : list Q :=
  match v with
  | QInt z => [inject_Z z] | QFloat q => [q]
  | QTuple l => map qnum_val l | QList l => map qnum_val l
  end.

(** base_frontend.py:276-291 Q. *)
Definition Q_of (v : qval) : res (list qnum) :=
  if existsb (fun q => Qltb q 1) (qval_entries v) then Err ValueError
  else match v with
       | QInt z => Ok [QI z; QI 1]
       | QTuple [a] => Ok [a; QI 1]
       | QTuple [a; b] => Ok [a; b]
       | QTuple _ => Err NotImplementedError
       | _ => Err ValueError
       end.

(** The [oversampling] argument: None, an int, or a non-integer (negative or not). *)
Inductive oval := ONone | OInt (z : Z) | OFloat (neg : bool).

(** base_frontend.py:63-81: the oversampling check of [build]; returns the new value of [_stride].
    The membership test [stride in [None, 2**(log2_T-oversampling-1)]] compares numbers by value, so
    that a float stride may pass it.  [2**(log2_T-oversampling)] is a float when the exponent is
    negative. *)
Definition oversampling_check (o : oval) (stride : sval) (T : tval) (J N : Z) : res sval :=
  match o with
  | ONone => Ok stride
  | OFloat neg => Err ValueError
  | OInt k =>
      if k <? 0 then Err ValueError
      else if k =? 0 then Ok stride
      else
        l <- log2_T_of T J N ;;
        let compatible :=
          match stride with
          | SNone => true
          | SInt s => Qeq_bool (inject_Z s) (Qpower 2 (l - k - 1))
          | SFloat q => Qeq_bool q (Qpower 2 (l - k - 1))
          | SOther => false
          end in
        if negb compatible then Err ValueError
        else Ok (if l - k <? 0 then SFloat (Qpower 2 (l - k)) else SInt (2 ^ (l - k)))
  end.

(** The [shape] argument: an int, a tuple of ints, or something else. *)
Inductive shval := ShInt (n : Z) | ShTuple (l : list Z) | ShOther.

(** base_frontend.py:50-61: the shape check of [build]; [self.shape[0]]. *)
Definition N_input_of (sh : shval) : res Z :=
  match sh with
  | ShInt n => Ok n
  | ShTuple [n] => Ok n
  | ShTuple [] => Err IndexError
  | ShTuple _ => Err ValueError
  | ShOther => Err ValueError
  end.

(** base_frontend.py:88-94: padded length, given [min_to_pad] (three times the support estimated by
    compute_temporal_support, kept as a parameter).  Logarithms are exact here. *)
Definition J_pad_of (N_input min_to_pad : Z) : Z :=
  let J_max_support := Z.log2 (3 * N_input - 2) in
  Z.min (Z.log2_up (N_input + 2 * min_to_pad)) J_max_support.
Definition N_padded_of (N_input min_to_pad : Z) : Z := 2 ^ (J_pad_of N_input min_to_pad).

(** User parameters of Scattering1D. *)
Record params := {
  p_J : Z; p_shape : shval; p_Q : qval; p_T : tval; p_stride : sval; p_max_order : Z;
  p_oversampling : oval
}.

(** The state left by [build]. *)
Record built := {
  b_N : Z;               (* self.shape[0] *)
  b_stride : sval;       (* self._stride, possibly rewritten by the oversampling branch *)
  b_Npad : Z;            (* self._N_padded *)
  b_left : Z; b_right : Z;
  b_start : list Z; b_end : list Z   (* ind_start, ind_end *)
}.

(** base_frontend.py:37-98 build.  [support N T] stands for
    [compute_temporal_support(gauss_1d(N, sigma0/T).reshape(1,-1), criterion_amplitude=1e-3)]; it is
    an arbitrary function here. *)
Definition build (support : Z -> Q -> Z) (p : params) : res built :=
  N <- N_input_of (p_shape p) ;;
  stride <- oversampling_check (p_oversampling p) (p_stride p) (p_T p) (p_J p) N ;;
  T <- T_of (p_T p) (p_J p) N ;;
  let min_to_pad := 3 * support N T in
  let Npad := N_padded_of N min_to_pad in
  lr <- compute_padding Npad N ;;
  l2T <- log2_T_of (p_T p) (p_J p) N ;;
  let (ind_start, ind_end) :=
    compute_border_indices l2T (p_J p) (fst lr) (fst lr + N) in
  Ok {| b_N := N; b_stride := stride; b_Npad := Npad;
        b_left := fst lr; b_right := snd lr;
        b_start := ind_start; b_end := ind_end |}.
