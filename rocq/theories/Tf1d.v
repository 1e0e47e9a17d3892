(** Models of the TensorFlow and JAX backends of the 1-D transforms, over the same arrays as the NumPy one, with the
    precision of a TensorFlow tensor recorded beside it. *)
From Coq Require Import ZArith List Bool Arith.
From Verif Require Import Base NdArray Backend Torch1d.
Import ListNotations.
Local Open Scope res_scope.

(** A TensorFlow tensor: [tf_prec] tells float32/complex64 ([F32]) from float64/complex128 ([F64]); [tf_val] holds the kind
    of dtype (real, complex or other), the shape and the entries. *)
Record tft (K : Type) := mk_tf { tf_prec : fdtype; tf_val : nd K }.
Arguments mk_tf {K}. Arguments tf_prec {K}. Arguments tf_val {K}.

Section Tf.
Context {K : Type} (o : ops K).

Definition lift1 (d : fdtype) (r : res (nd K)) : res (tft K) := y <- r ;; Ok (mk_tf d y).

(** kymatio/backend/numpy_backend.py:22-38 complex_check and real_check, inherited: a tf.DType compares equal to the NumPy
    type of the same name. *)
Definition tf_complex_check (x : tft K) : res unit := raise_if (negb (is_complex (tf_val x))) TypeError.
Definition tf_real_check (x : tft K) : res unit := raise_if (negb (is_real (tf_val x))) TypeError.

(** kymatio/scattering1d/backend/tensorflow_backend.py:89-111 cfft, rfft, irfft, ifft.  rfft casts to complex64 whatever the
    precision of [x].  tf.signal.fft accepts an axis of length zero.  The precision of the arithmetic is not modelled, only
    that of the result. *)
Definition tf_fft_rows (d : dtype) (f : list K -> list K) (x : nd K) : res (nd K) :=
  '(pre, n) <- split_last (nd_shape x) ;; Ok (map_rows d n f pre n x).
Definition tf_rfft (x : tft K) : res (tft K) := _ <- tf_real_check x ;; lift1 F32 (tf_fft_rows Complex (o_fft o) (tf_val x)).
Definition tf_cfft (x : tft K) : res (tft K) := _ <- tf_complex_check x ;; lift1 (tf_prec x) (tf_fft_rows Complex (o_fft o) (tf_val x)).
Definition tf_ifft (x : tft K) : res (tft K) := _ <- tf_complex_check x ;; lift1 (tf_prec x) (tf_fft_rows Complex (o_ifft o) (tf_val x)).
Definition tf_irfft (x : tft K) : res (tft K) :=
  _ <- tf_complex_check x ;; lift1 (tf_prec x) (tf_fft_rows Real (fun r => map (o_re o) (o_ifft o r)) (tf_val x)).

(** kymatio/backend/numpy_backend.py:65-95 cdgmm, inherited: [A * B] with a NumPy array [B] converts [B] to the dtype of [A]. *)
Definition tf_cdgmm (A : tft K) (B : nd K) : res (tft K) :=
  if negb (is_complex (tf_val A)) then Err TypeError
  else if list_eq_dec Nat.eq_dec (trailing (length (nd_shape B)) (nd_shape (tf_val A))) (nd_shape B) then
    if negb (is_complex B) && negb (is_real B) then Err TypeError
    else
      let s := nd_shape (tf_val A) in
      let pre := firstn (length s - length (nd_shape B)) s in
      Ok (mk_tf (tf_prec A) (mk_nd Complex s
            (concat (map (mul_row o (nd_data B)) (chunks (prod pre) (prod (nd_shape B)) (nd_data (tf_val A)))))))
  else Err RuntimeError.

(** kymatio/scattering1d/backend/tensorflow_backend.py:7-37 subsample_fourier: tf.reshape to [pre + [k, n // k]], then the mean
    over axis -2.  A float [k] makes the shape a list of floats (TypeError); tf.reshape raises InvalidArgumentError, mapped
    to RuntimeError here, when the sizes differ. *)
Definition tf_subsample (x : tft K) (k : pynum) : res (tft K) :=
  _ <- tf_complex_check x ;;
  match k with
  | PFloat => Err TypeError
  | PInt k =>
      '(pre, n) <- split_last (nd_shape (tf_val x)) ;;
      if (k =? 0)%Z then Err ZeroDivisionError
      else if (k <? 0)%Z then Err RuntimeError
      else
        let k := Z.to_nat k in
        let m := n / k in
        if Nat.eqb (prod (pre ++ [k; m])) (prod (nd_shape (tf_val x)))
        then Ok (mk_tf (tf_prec x) (map_rows Complex m (periodize_row o k m) pre n (tf_val x)))
        else Err RuntimeError
  end.

(** kymatio/backend/tensorflow_backend.py:12-15 modulus. *)
Definition tf_modulus (x : tft K) : res (tft K) :=
  Ok (mk_tf (tf_prec x) (mk_nd (match nd_dtype (tf_val x) with OtherT => OtherT | _ => Real end) (nd_shape (tf_val x))
        (map (o_abs o) (nd_data (tf_val x))))).

(** kymatio/scattering1d/backend/tensorflow_backend.py:113-117 average_global. *)
Definition tf_average_global (x : tft K) : res (tft K) :=
  _ <- tf_real_check x ;;
  '(pre, n) <- split_last (nd_shape (tf_val x)) ;;
  Ok (mk_tf (tf_prec x) (map_rows Real 1 (fun r => [osum o r]) pre n (tf_val x))).

(** kymatio/scattering1d/backend/tensorflow_backend.py:39-68 pad, mode='reflect'.  tf.pad raises InvalidArgumentError on a
    negative amount. *)
Definition tf_pad (x : tft K) (pad_left pad_right : Z) : res (tft K) :=
  '(pre, n) <- split_last (nd_shape (tf_val x)) ;;
  if ((Z.of_nat n <=? pad_left) || (Z.of_nat n <=? pad_right))%Z then Err ValueError
  else if ((pad_left <? 0) || (pad_right <? 0))%Z then Err RuntimeError
  else
    let l := Z.to_nat pad_left in
    let r := Z.to_nat pad_right in
    Ok (mk_tf (tf_prec x) (map_rows (nd_dtype (tf_val x)) (l + n + r) (pad_reflect_row o l r n) pre n (tf_val x))).

(** kymatio/scattering1d/backend/tensorflow_backend.py:70-87 unpad. *)
Definition tf_unpad (x : tft K) (i0 i1 : Z) : res (tft K) :=
  '(pre, n) <- split_last (nd_shape (tf_val x)) ;;
  let a := Z.to_nat i0 in
  let b := Z.to_nat i1 in
  Ok (mk_tf (tf_prec x) (map_rows (nd_dtype (tf_val x)) (Nat.min b n - Nat.min a n) (slice a b) pre n (tf_val x))).

(** kymatio/backend/tensorflow_backend.py:17-30 reshape_input, reshape_output.  The exception of tf.reshape is mapped to
    RuntimeError. *)
Definition to_runtime {A} (r : res A) : res A := match r with Ok y => Ok y | Err _ => Err RuntimeError end.
Definition tf_reshape_input (x : tft K) (signal_shape : list nat) : res (tft K) :=
  lift1 (tf_prec x) (to_runtime (reshape_infer (1 :: signal_shape) (tf_val x))).
Definition tf_reshape_output (x : tft K) (batch_shape : list nat) (n_kept_dims : nat) : res (tft K) :=
  lift1 (tf_prec x) (to_runtime (reshape (batch_shape ++ trailing n_kept_dims (nd_shape (tf_val x))) (tf_val x))).

(** kymatio/backend/tensorflow_backend.py:8-10 stack.  Unlike numpy.stack, tf.stack does not promote: tensors of different
    dtypes raise (InvalidArgumentError, mapped to RuntimeError, as are its other exceptions). *)
Definition dtype_eqb (a b : dtype) : bool :=
  match a, b with Real, Real | Complex, Complex | OtherT, OtherT => true | _, _ => false end.
Definition tf_same (x y : tft K) : bool :=
  fdtype_eqb (tf_prec x) (tf_prec y) && dtype_eqb (nd_dtype (tf_val x)) (nd_dtype (tf_val y)).
Definition tf_stack (l : list (tft K)) (dim : Z) : res (tft K) :=
  match l with
  | [] => Err RuntimeError
  | x :: _ => if forallb (tf_same x) l then lift1 (tf_prec x) (to_runtime (stack (map tf_val l) dim)) else Err RuntimeError
  end.

(** kymatio/scattering1d/backend/tensorflow_backend.py:119-121 pad_frequency. *)
Definition tf_pad_frequency (x : tft K) (padding : Z) : res (tft K) :=
  '(pre, n) <- split_last (nd_shape (tf_val x)) ;;
  if (padding <? 0)%Z then Err RuntimeError
  else
    let r := Z.to_nat padding in
    Ok (mk_tf (tf_prec x) (map_rows (nd_dtype (tf_val x)) (n + r) (pad_zero_row o r) pre n (tf_val x))).

(** kymatio/scattering1d/backend/tensorflow_backend.py:123-125 swap_time_frequency: tf.linalg.matrix_transpose. *)
Definition tf_swap (x : tft K) : res (tft K) :=
  '(pre, m, n) <- split_last2 (nd_shape (tf_val x)) ;;
  Ok (mk_tf (tf_prec x) (mk_nd (nd_dtype (tf_val x)) (pre ++ [n; m])
        (concat (map (transpose_block o m n) (chunks (prod pre) (m * n) (nd_data (tf_val x))))))).

(** kymatio/scattering1d/backend/tensorflow_backend.py:127-130 unpad_frequency: [x[:, :, :n1_unpadded, :]], four axes exactly: a
    tensor with fewer raises (IndexError), one with more has its third axis cut. *)
Definition tf_unpad_frequency (x : tft K) (n1_max : Z) (n1_stride : pynum) : res (tft K) :=
  match n1_stride with
  | PFloat => Err TypeError
  | PInt s =>
      if (s =? 0)%Z then Err ZeroDivisionError else
      match nd_shape (tf_val x) with
      | a :: b :: m :: rest =>
          match rest with [] => Err IndexError | _ =>
            let u := Z.to_nat (1 + n1_max / s) in
            Ok (mk_tf (tf_prec x) (mk_nd (nd_dtype (tf_val x)) (a :: b :: Nat.min u m :: rest)
                  (concat (map (firstn (u * prod rest)) (chunks (prod [a; b]) (m * prod rest) (nd_data (tf_val x)))))))
          end
      | _ => Err IndexError
      end
  end.

(** kymatio/scattering1d/backend/tensorflow_backend.py:132-134 split_frequency_axis. *)
Definition tf_split_frequency (x : tft K) : res (list (tft K)) :=
  '(pre, m, n) <- split_last2 (nd_shape (tf_val x)) ;;
  if Nat.eqb m 0 then Err RuntimeError else
  Ok (map (fun i =>
        mk_tf (tf_prec x) (mk_nd (nd_dtype (tf_val x)) (pre ++ [1; n])
          (concat (map (fun blk => firstn n (skipn (i * n) blk)) (chunks (prod pre) (m * n) (nd_data (tf_val x)))))))
      (seq 0 m)).

(** kymatio/scattering1d/backend/tensorflow_backend.py TensorFlowBackend1D.  tf.shape returns a tensor of integers, used only
    through slices and tf.concat; it is modelled by the list of its entries. *)
Definition tf_backend : backend (tft K) (nd K) := {|
  be_rfft := tf_rfft; be_cfft := tf_cfft; be_irfft := tf_irfft; be_ifft := tf_ifft;
  be_cdgmm := tf_cdgmm; be_subsample := tf_subsample; be_modulus := tf_modulus;
  be_average_global := tf_average_global; be_pad := tf_pad; be_unpad := tf_unpad;
  be_shape := fun x => nd_shape (tf_val x); be_reshape_input := tf_reshape_input;
  be_reshape_output := tf_reshape_output; be_stack := tf_stack;
  be_pad_frequency := tf_pad_frequency; be_swap := tf_swap;
  be_unpad_frequency := tf_unpad_frequency; be_split_frequency := tf_split_frequency
|}.

(** kymatio/backend/jax_backend.py and kymatio/scattering1d/backend/jax_backend.py: JaxBackend1D has the methods of
    NumpyBackend1D with jax.numpy for numpy and scipy.fft.  jax.numpy raises TypeError where a reshape is impossible; its FFT
    on an axis of length zero and its other exceptions are those of NumPy.  All floats being of single precision by default,
    precision is not recorded. *)
Definition jax_reshape_error {A} (r : res A) : res A := match r with Err ValueError => Err TypeError | _ => r end.
Definition jax_subsample (x : nd K) (k : pynum) : res (nd K) :=
  jax_reshape_error (np_subsample o x k).
Definition jax_backend : backend (nd K) (nd K) := {|
  be_rfft := np_rfft o; be_cfft := np_cfft o; be_irfft := np_irfft o; be_ifft := np_ifft o;
  be_cdgmm := np_cdgmm o; be_subsample := jax_subsample; be_modulus := np_modulus o;
  be_average_global := np_average_global o; be_pad := np_pad o; be_unpad := np_unpad;
  be_shape := nd_shape; be_reshape_input := fun x s => jax_reshape_error (np_reshape_input x s);
  be_reshape_output := fun x b k => jax_reshape_error (np_reshape_output x b k); be_stack := stack;
  be_pad_frequency := np_pad_frequency o; be_swap := np_swap o;
  be_unpad_frequency := np_unpad_frequency; be_split_frequency := np_split_frequency
|}.
End Tf.
