(** The backend argument of the transforms as a record, its NumPy instance over an arbitrary scalar
    type, and the dry backend used by meta(). *)
From Coq Require Import ZArith List Bool Arith.
From Verif Require Import Base NdArray.
Import ListNotations.
Local Open Scope res_scope.

(** Methods of a 1-D backend that the transforms call.  [X]: tensors; [W]: filter arrays. *)
Record backend (X W : Type) := {
  be_rfft : X -> res X;
  be_cfft : X -> res X;
  be_irfft : X -> res X;
  be_ifft : X -> res X;
  be_cdgmm : X -> W -> res X;
  be_subsample : X -> pynum -> res X;
  be_modulus : X -> res X;
  be_average_global : X -> res X;
  be_pad : X -> Z -> Z -> res X;
  be_unpad : X -> Z -> Z -> res X;
  be_shape : X -> list nat;
  be_reshape_input : X -> list nat -> res X;
  be_reshape_output : X -> list nat -> nat -> res X;
  be_stack : list X -> Z -> res X;
  be_pad_frequency : X -> Z -> res X;
  be_swap : X -> res X;
  be_unpad_frequency : X -> Z -> pynum -> res X;
  be_split_frequency : X -> res (list X)
}.
Arguments be_rfft {X W}. Arguments be_cfft {X W}. Arguments be_irfft {X W}. Arguments be_ifft {X W}.
Arguments be_cdgmm {X W}. Arguments be_subsample {X W}. Arguments be_modulus {X W}.
Arguments be_average_global {X W}. Arguments be_pad {X W}. Arguments be_unpad {X W}.
Arguments be_shape {X W}. Arguments be_reshape_input {X W}. Arguments be_reshape_output {X W}.
Arguments be_stack {X W}. Arguments be_pad_frequency {X W}. Arguments be_swap {X W}.
Arguments be_unpad_frequency {X W}. Arguments be_split_frequency {X W}.

(** kymatio/frontend/base_frontend.py:58-59 _DryBackend: every method returns None whatever its
    arguments.  [be_shape] and [be_split_frequency] are never called with it. *)
Definition dry_backend (W : Type) : backend unit W := {|
  be_rfft := fun _ => Ok tt; be_cfft := fun _ => Ok tt; be_irfft := fun _ => Ok tt;
  be_ifft := fun _ => Ok tt; be_cdgmm := fun _ _ => Ok tt; be_subsample := fun _ _ => Ok tt;
  be_modulus := fun _ => Ok tt; be_average_global := fun _ => Ok tt;
  be_pad := fun _ _ _ => Ok tt; be_unpad := fun _ _ _ => Ok tt; be_shape := fun _ => [];
  be_reshape_input := fun _ _ => Ok tt; be_reshape_output := fun _ _ _ => Ok tt;
  be_stack := fun _ _ => Ok tt; be_pad_frequency := fun _ _ => Ok tt; be_swap := fun _ => Ok tt;
  be_unpad_frequency := fun _ _ _ => Ok tt; be_split_frequency := fun _ => Ok []
|}.

Section Numpy.
Context {K : Type} (o : ops K).

Definition is_complex (x : nd K) : bool := match nd_dtype x with Complex => true | _ => false end.
Definition is_real (x : nd K) : bool := match nd_dtype x with Real => true | _ => false end.

(** kymatio/backend/numpy_backend.py:22-30 complex_check, real_check. *)
Definition complex_check (x : nd K) : res unit := raise_if (negb (is_complex x)) TypeError.
Definition real_check (x : nd K) : res unit := raise_if (negb (is_real x)) TypeError.

(** kymatio/backend/numpy_backend.py:45-62 modulus: numpy.abs, elementwise; complex becomes real. *)
Definition np_modulus (x : nd K) : res (nd K) :=
  Ok (mk_nd (match nd_dtype x with OtherT => OtherT | _ => Real end) (nd_shape x)
            (map (o_abs o) (nd_data x))).

(** kymatio/backend/numpy_backend.py:65-95 cdgmm, for a filter [B] of any rank: the trailing axes of
    [A] must equal the shape of [B] ([A.shape[-len(B.shape):]]; for a rank-0 filter the slice [-0:] is the whole
    shape, so that only a rank-0 [A] would pass). *)
Definition trailing (k : nat) (s : list nat) : list nat :=
  match k with O => s | _ => skipn (length s - k) s end.
Definition np_cdgmm (A B : nd K) : res (nd K) :=
  if negb (is_complex A) then Err TypeError
  else if list_eq_dec Nat.eq_dec (trailing (length (nd_shape B)) (nd_shape A)) (nd_shape B) then
    if negb (is_complex B) && negb (is_real B) then Err TypeError
    else
      let pre := firstn (length (nd_shape A) - length (nd_shape B)) (nd_shape A) in
      Ok (mk_nd Complex (nd_shape A)
            (concat (map (mul_row o (nd_data B)) (chunks (prod pre) (prod (nd_shape B)) (nd_data A)))))
  else Err RuntimeError.

(** kymatio/scattering1d/backend/numpy_backend.py:6-32 subsample_fourier.  A float [k] makes reshape
    raise TypeError, [k = 0] makes the floor division raise ZeroDivisionError; a negative [k] is never passed by
    the code (reshape would infer an axis) and is mapped to ValueError. *)
Definition np_subsample (x : nd K) (k : pynum) : res (nd K) :=
  _ <- complex_check x ;;
  match k with
  | PFloat => Err TypeError
  | PInt k =>
      '(pre, n) <- split_last (nd_shape x) ;;
      if (k =? 0)%Z then Err ZeroDivisionError
      else if (k <? 0)%Z then Err ValueError
      else
        let k := Z.to_nat k in
        let m := n / k in
        if Nat.eqb (prod (pre ++ [k; m])) (prod (nd_shape x))
        then Ok (map_rows Complex m (periodize_row o k m) pre n x)
        else Err ValueError
  end.

(** kymatio/scattering1d/backend/numpy_backend.py:35-65 pad, mode='reflect'.  numpy.pad rejects negative
    amounts with ValueError. *)
Definition np_pad (x : nd K) (pad_left pad_right : Z) : res (nd K) :=
  '(pre, n) <- split_last (nd_shape x) ;;
  if ((Z.of_nat n <=? pad_left) || (Z.of_nat n <=? pad_right))%Z then Err ValueError
  else if ((pad_left <? 0) || (pad_right <? 0))%Z then Err ValueError
  else
    let l := Z.to_nat pad_left in
    let r := Z.to_nat pad_right in
    Ok (map_rows (nd_dtype x) (l + n + r) (pad_reflect_row o l r n) pre n x).

(** kymatio/scattering1d/backend/numpy_backend.py:68-84 unpad: [x[..., i0:i1]], [0 <= i0, i1]. *)
Definition np_unpad (x : nd K) (i0 i1 : Z) : res (nd K) :=
  '(pre, n) <- split_last (nd_shape x) ;;
  let a := Z.to_nat i0 in
  let b := Z.to_nat i1 in
  Ok (map_rows (nd_dtype x) (Nat.min b n - Nat.min a n) (slice a b) pre n x).

(** kymatio/scattering1d/backend/numpy_backend.py:87-108 cfft, rfft, irfft, ifft.  numpy.fft.fft raises
    ValueError on an axis of length zero. *)
Definition np_fft_rows (d : dtype) (f : list K -> list K) (x : nd K) : res (nd K) :=
  '(pre, n) <- split_last (nd_shape x) ;;
  if Nat.eqb n 0 then Err ValueError
  else Ok (map_rows d n f pre n x).
Definition np_rfft (x : nd K) : res (nd K) := _ <- real_check x ;; np_fft_rows Complex (o_fft o) x.
Definition np_cfft (x : nd K) : res (nd K) := _ <- complex_check x ;; np_fft_rows Complex (o_fft o) x.
Definition np_ifft (x : nd K) : res (nd K) := _ <- complex_check x ;; np_fft_rows Complex (o_ifft o) x.
Definition np_irfft (x : nd K) : res (nd K) :=
  _ <- complex_check x ;; np_fft_rows Real (fun r => map (o_re o) (o_ifft o r)) x.

(** kymatio/scattering1d/backend/numpy_backend.py:111-114 average_global. *)
Definition np_average_global (x : nd K) : res (nd K) :=
  _ <- real_check x ;;
  '(pre, n) <- split_last (nd_shape x) ;;
  Ok (map_rows Real 1 (fun r => [osum o r]) pre n x).

(** kymatio/backend/numpy_backend.py:98-108 reshape_input, reshape_output, shape. *)
Definition np_reshape_input (x : nd K) (signal_shape : list nat) : res (nd K) :=
  reshape_infer (1 :: signal_shape) x.
Definition np_reshape_output (x : nd K) (batch_shape : list nat) (n_kept_dims : nat) : res (nd K) :=
  reshape (batch_shape ++ trailing n_kept_dims (nd_shape x)) x.

(** kymatio/scattering1d/backend/numpy_backend.py:117-118 pad_frequency: zero padding on the right; negative
    amounts raise ValueError. *)
Definition np_pad_frequency (x : nd K) (padding : Z) : res (nd K) :=
  '(pre, n) <- split_last (nd_shape x) ;;
  if (padding <? 0)%Z then Err ValueError
  else
    let r := Z.to_nat padding in
    Ok (map_rows (nd_dtype x) (n + r) (pad_zero_row o r) pre n x).

(** Split off the last two axes. *)
Definition split_last2 (s : list nat) : res (list nat * nat * nat) :=
  match rev s with
  | n :: m :: r => Ok (rev r, m, n)
  | _ => Err ValueError
  end.

(** kymatio/scattering1d/backend/numpy_backend.py:121-122 swap_time_frequency: moveaxis of the last two
    axes, i.e. their transposition. *)
Definition np_swap (x : nd K) : res (nd K) :=
  '(pre, m, n) <- split_last2 (nd_shape x) ;;
  Ok (mk_nd (nd_dtype x) (pre ++ [n; m])
        (concat (map (transpose_block o m n) (chunks (prod pre) (m * n) (nd_data x))))).

(** kymatio/scattering1d/backend/numpy_backend.py:125-127 unpad_frequency:
    [x[..., :1 + n1_max // n1_stride, :]]; a float stride makes the slice bound a float (TypeError). *)
Definition np_unpad_frequency (x : nd K) (n1_max : Z) (n1_stride : pynum) : res (nd K) :=
  match n1_stride with
  | PFloat => Err TypeError
  | PInt s =>
      if (s =? 0)%Z then Err ZeroDivisionError else
      '(pre, m, n) <- split_last2 (nd_shape x) ;;
      let u := Z.to_nat (1 + n1_max / s) in
      Ok (mk_nd (nd_dtype x) (pre ++ [Nat.min u m; n])
            (concat (map (firstn (u * n)) (chunks (prod pre) (m * n) (nd_data x)))))
  end.

(** kymatio/scattering1d/backend/numpy_backend.py:130-131 split_frequency_axis: one array per row of the
    penultimate axis, that axis being kept with length one. numpy.split into zero sections raises. *)
Definition np_split_frequency (x : nd K) : res (list (nd K)) :=
  '(pre, m, n) <- split_last2 (nd_shape x) ;;
  if Nat.eqb m 0 then Err ZeroDivisionError else
  Ok (map (fun i =>
        mk_nd (nd_dtype x) (pre ++ [1; n])
          (concat (map (fun blk => firstn n (skipn (i * n) blk)) (chunks (prod pre) (m * n) (nd_data x)))))
      (seq 0 m)).

Definition numpy_backend : backend (nd K) (nd K) := {|
  be_rfft := np_rfft; be_cfft := np_cfft; be_irfft := np_irfft; be_ifft := np_ifft;
  be_cdgmm := np_cdgmm; be_subsample := np_subsample; be_modulus := np_modulus;
  be_average_global := np_average_global; be_pad := np_pad; be_unpad := np_unpad;
  be_shape := nd_shape; be_reshape_input := np_reshape_input;
  be_reshape_output := np_reshape_output; be_stack := stack;
  be_pad_frequency := np_pad_frequency; be_swap := np_swap;
  be_unpad_frequency := np_unpad_frequency; be_split_frequency := np_split_frequency
|}.
End Numpy.

(** Scalar operations on the one-point type: running the model with them computes exactly the shapes,
    dtypes and exceptions. *)
Definition unit_ops : ops unit := {|
  o_zero := tt; o_add := fun _ _ => tt; o_mul := fun _ _ => tt; o_divn := fun _ _ => tt;
  o_abs := fun _ => tt; o_re := fun _ => tt; o_fft := fun l => l; o_ifft := fun l => l
|}.
