(** Model of the PyTorch backend of the 1-D transforms (kymatio/backend/torch_backend.py and
    kymatio/scattering1d/backend/torch_backend.py), in exact real arithmetic.  A complex tensor is a real one
    whose last axis has length two (real part, imaginary part); a real tensor has a last axis of length one. *)
From Coq Require Import Reals ZArith List Bool Arith.
From Coquelicot Require Import Complex.
From Verif Require Import Base NdArray Backend ComplexOps.
Import ListNotations.
Local Open Scope res_scope.

Inductive fdtype := F32 | F64.
Definition fdtype_eqb (a b : fdtype) : bool :=
  match a, b with F32, F32 => true | F64, F64 => true | _, _ => false end.

(** A torch tensor: floating-point dtype, shape, row-major entries.  [t_contig] holds when the result is known to
    be contiguous; a tensor for which it is false may be contiguous in reality, the model then raises where the
    code might not.  All tensors are on one device. *)
Record tensor := mk_t { t_dtype : fdtype; t_shape : list nat; t_data : list R; t_contig : bool }.

(** Real scalars, used by the row functions of NdArray.v. *)
Definition real_ops : ops R := {|
  o_zero := 0%R; o_add := Rplus; o_mul := Rmult; o_divn := fun x n => (x / INR n)%R;
  o_abs := Rabs; o_re := fun x => x; o_fft := fun l => l; o_ifft := fun l => l
|}.

(** kymatio/backend/torch_backend.py:109-135 complex_check, real_check, contiguous_check. *)
Definition t_complex_check (x : tensor) : res unit :=
  '(_, c) <- split_last (t_shape x) ;; raise_if (negb (Nat.eqb c 2)) TypeError.
Definition t_real_check (x : tensor) : res unit :=
  '(_, c) <- split_last (t_shape x) ;; raise_if (negb (Nat.eqb c 1)) TypeError.
Definition t_contiguous_check (x : tensor) : res unit := raise_if (negb (t_contig x)) RuntimeError.

(** torch.view_as_complex and torch.view_as_real on row-major entries. *)
Fixpoint of_pairs (l : list R) : list C :=
  match l with
  | a :: b :: r => (a, b) :: of_pairs r
  | _ => []
  end.
Definition to_pairs (l : list C) : list R := flat_map (fun z => [fst z; snd z]) l.

(** kymatio/backend/torch_backend.py:31-61 ModulusStable.forward, 137-141 modulus. *)
Definition modulus_forward (x0 x1 : R) : R := sqrt (x0 * x0 + x1 * x1).
Definition t_modulus (x : tensor) : res tensor :=
  _ <- t_complex_check x ;;
  _ <- t_contiguous_check x ;;
  '(pre, _) <- split_last (t_shape x) ;;
  Ok (mk_t (t_dtype x) (pre ++ [1])
        (map (fun z => modulus_forward (fst z) (snd z)) (of_pairs (t_data x))) true).

(** kymatio/backend/torch_backend.py:147-219 cdgmm.  With a real filter the product broadcasts the last axis of
    length one; with a complex filter the four real products are formed on the flattened parts. *)
Definition cdgmm_real_row (B row : list R) : list R :=
  flat_map (fun zb : C * R => [fst (fst zb) * snd zb; snd (fst zb) * snd zb]%R) (combine (of_pairs row) B).
Definition cdgmm_complex_row (B row : list R) : list R :=
  flat_map (fun zb : C * C =>
      let (a, b) := zb in
      [fst a * fst b - snd a * snd b; fst a * snd b + snd a * fst b]%R)
    (combine (of_pairs row) (of_pairs B)).
Definition t_cdgmm (A B : tensor) : res tensor :=
  '(sB, cB) <- split_last (t_shape B) ;;
  _ <- (if Nat.eqb cB 1 then t_contiguous_check B
        else _ <- t_complex_check B ;; t_contiguous_check B) ;;
  _ <- t_complex_check A ;;
  _ <- t_contiguous_check A ;;
  '(sA, _) <- split_last (t_shape A) ;;
  (* A.shape[-len(B.shape):-1] != B.shape[:-1] *)
  if list_eq_dec Nat.eq_dec (skipn (length sA + 1 - (length sB + 1)) sA) sB then
    if negb (fdtype_eqb (t_dtype A) (t_dtype B)) then Err TypeError
    else
      let pre := firstn (length sA - length sB) sA in
      Ok (mk_t (t_dtype A) (t_shape A)
            (concat (map (if Nat.eqb cB 1 then cdgmm_real_row (t_data B) else cdgmm_complex_row (t_data B))
                         (chunks (prod pre) (prod sB * 2) (t_data A)))) true)
  else Err RuntimeError.

(** Split off the trailing axis (length c) and the one before (length n). *)
Definition split_pair (s : list nat) : res (list nat * nat * nat) :=
  match rev s with
  | c :: n :: r => Ok (rev r, n, c)
  | _ => Err IndexError
  end.

(** kymatio/scattering1d/backend/torch_backend.py:18-48 subsample_fourier: view(pre + (k, N//k, 2)).mean(dim=-3).
    [view] requires compatible strides and raises RuntimeError when the sizes do not match; a float [k] raises
    TypeError. *)
Definition t_subsample (x : tensor) (k : pynum) : res tensor :=
  _ <- t_complex_check x ;;
  match k with
  | PFloat => Err TypeError
  | PInt k =>
      '(pre, n, c) <- split_pair (t_shape x) ;;
      if (k =? 0)%Z then Err ZeroDivisionError
      else if (k <? 0)%Z then Err RuntimeError
      else if negb (t_contig x) then Err RuntimeError
      else
        let k := Z.to_nat k in
        let m := n / k in
        if Nat.eqb (prod (pre ++ [k; m; 2])) (prod (t_shape x))
        then Ok (mk_t (t_dtype x) (pre ++ [m; 2])
                  (concat (map (periodize_row real_ops k (m * 2)) (chunks (prod pre) (n * 2) (t_data x)))) true)
        else Err RuntimeError
  end.

(** kymatio/scattering1d/backend/torch_backend.py:51-82 pad, mode='reflect', of a tensor without a trailing axis;
    F.pad in this mode accepts tensors of two or three axes.  The padding amounts of the frontend are never
    negative (negative ones are mapped to RuntimeError). *)
Definition t_pad (x : tensor) (pad_left pad_right : Z) : res tensor :=
  '(pre, n) <- split_last (t_shape x) ;;
  if ((Z.of_nat n <=? pad_left) || (Z.of_nat n <=? pad_right))%Z then Err ValueError
  else if ((pad_left <? 0) || (pad_right <? 0))%Z then Err RuntimeError
  else if negb (Nat.eqb (length pre) 1 || Nat.eqb (length pre) 2) then Err NotImplementedError
  else
    let l := Z.to_nat pad_left in
    let r := Z.to_nat pad_right in
    Ok (mk_t (t_dtype x) (pre ++ [l + n + r; 1])
          (concat (map (pad_reflect_row real_ops l r n) (chunks (prod pre) n (t_data x)))) true).

(** kymatio/scattering1d/backend/torch_backend.py:85-106 unpad: the trailing axis is dropped (reshape raises
    RuntimeError unless its length is one), then [x[..., i0:i1]], [0 <= i0, i1]. *)
Definition t_unpad (x : tensor) (i0 i1 : Z) : res tensor :=
  '(s, c) <- split_last (t_shape x) ;;
  if negb (Nat.eqb (prod s) (prod (t_shape x))) then Err RuntimeError else
  '(pre, n) <- split_last s ;;
  let a := Z.to_nat i0 in
  let b := Z.to_nat i1 in
  Ok (mk_t (t_dtype x) (pre ++ [Nat.min b n - Nat.min a n])
        (concat (map (slice a b) (chunks (prod pre) n (t_data x)))) false).

(** torch.fft.fft / ifft along the axis before the trailing one; a length of zero raises RuntimeError. *)
Definition t_fft_rows (f : list C -> list C) (s : list nat) (data : list C) : res (list C) :=
  '(pre, n) <- split_last s ;;
  if Nat.eqb n 0 then Err RuntimeError
  else Ok (concat (map f (chunks (prod pre) n data))).

(** kymatio/scattering1d/backend/torch_backend.py:108-141 cfft, rfft, irfft, ifft.  The result of [irfft] is a
    strided view on the real parts. *)
Definition t_cfft (x : tensor) : res tensor :=
  _ <- t_contiguous_check x ;; _ <- t_complex_check x ;;
  '(s, _) <- split_last (t_shape x) ;;
  y <- t_fft_rows dft s (of_pairs (t_data x)) ;;
  Ok (mk_t (t_dtype x) (s ++ [2]) (to_pairs y) true).
Definition t_rfft (x : tensor) : res tensor :=
  _ <- t_contiguous_check x ;; _ <- t_real_check x ;;
  '(s, _) <- split_last (t_shape x) ;;
  let x_r := flat_map (fun a => [a; 0%R]) (t_data x) in
  y <- t_fft_rows dft s (of_pairs x_r) ;;
  Ok (mk_t (t_dtype x) (s ++ [2]) (to_pairs y) true).
Definition t_irfft (x : tensor) : res tensor :=
  _ <- t_contiguous_check x ;; _ <- t_complex_check x ;;
  '(s, _) <- split_last (t_shape x) ;;
  y <- t_fft_rows idft s (of_pairs (t_data x)) ;;
  Ok (mk_t (t_dtype x) (s ++ [1]) (map fst y) false).
Definition t_ifft (x : tensor) : res tensor :=
  _ <- t_contiguous_check x ;; _ <- t_complex_check x ;;
  '(s, _) <- split_last (t_shape x) ;;
  y <- t_fft_rows idft s (of_pairs (t_data x)) ;;
  Ok (mk_t (t_dtype x) (s ++ [2]) (to_pairs y) true).

(** kymatio/scattering1d/backend/torch_backend.py:143-148 average_global: torch.sum(x, axis=-2, keepdims=True). *)
Definition t_average_global (x : tensor) : res tensor :=
  _ <- t_contiguous_check x ;; _ <- t_real_check x ;;
  '(pre, n, c) <- split_pair (t_shape x) ;;
  Ok (mk_t (t_dtype x) (pre ++ [1; 1])
        (concat (map (fun r => [osum real_ops r]) (chunks (prod pre) n (t_data x)))) true).

(** kymatio/scattering1d/backend/torch_backend.py:150-169 pad_frequency: F.pad(x, (0, 0, 0, padding)); a negative
    amount crops the axis, and raises RuntimeError when more than the axis would be removed. *)
Definition t_pad_frequency (x : tensor) (padding : Z) : res tensor :=
  '(pre, n, c) <- split_pair (t_shape x) ;;
  if (Z.of_nat n + padding <? 0)%Z then Err RuntimeError
  else
    let n' := Z.to_nat (Z.of_nat n + padding) in
    Ok (mk_t (t_dtype x) (pre ++ [n'; c])
          (concat (map (fun row => firstn (n' * c) (pad_zero_row real_ops (Z.to_nat padding * c) row))
                       (chunks (prod pre) (n * c) (t_data x)))) true).

(** Split off the last three axes (IndexError for fewer). *)
Definition split_last3 (s : list nat) : res (list nat * nat * nat * nat) :=
  match rev s with
  | c :: n :: m :: r => Ok (rev r, m, n, c)
  | _ => Err IndexError
  end.
(** kymatio/scattering1d/backend/torch_backend.py:171-186 swap_time_frequency: transpose(x, -2, -3).contiguous(). *)
Definition transpose_cells (a b c : nat) (l : list R) : list R :=
  concat (map (fun j => concat (map (fun i => firstn c (skipn ((i * b + j) * c) l)) (seq 0 a))) (seq 0 b)).
Definition t_swap (x : tensor) : res tensor :=
  '(pre, m, n, c) <- split_last3 (t_shape x) ;;
  Ok (mk_t (t_dtype x) (pre ++ [n; m; c])
        (concat (map (transpose_cells m n c) (chunks (prod pre) (m * n * c) (t_data x)))) true).

(** kymatio/scattering1d/backend/torch_backend.py:188-208 unpad_frequency: x[:, :, :1 + n1_max // n1_stride, :],
    which slices the third axis whatever the rank (four or more axes, IndexError otherwise). *)
Definition t_unpad_frequency (x : tensor) (n1_max : Z) (n1_stride : pynum) : res tensor :=
  match n1_stride with
  | PFloat => Err TypeError
  | PInt s =>
      if (s =? 0)%Z then Err ZeroDivisionError else
      match t_shape x with
      | a :: b :: m :: n :: rest =>
          let u := Z.to_nat (1 + n1_max / s) in
          let inner := prod (n :: rest) in
          Ok (mk_t (t_dtype x) (a :: b :: Nat.min u m :: n :: rest)
                (concat (map (firstn (u * inner)) (chunks (a * b) (m * inner) (t_data x)))) false)
      | _ => Err IndexError
      end
  end.

(** kymatio/scattering1d/backend/torch_backend.py:210-223 split_frequency_axis: torch.split(x, 1, dim=-3); an axis of
    length zero gives the single empty tensor. *)
Definition t_split_frequency (x : tensor) : res (list tensor) :=
  '(pre, m, n, c) <- split_last3 (t_shape x) ;;
  if Nat.eqb m 0 then Ok [x] else
  Ok (map (fun i =>
        mk_t (t_dtype x) (pre ++ [1; n; c])
          (concat (map (fun blk => firstn (n * c) (skipn (i * (n * c)) blk))
                       (chunks (prod pre) (m * n * c) (t_data x)))) false)
      (seq 0 m)).

(** kymatio/backend/torch_backend.py:221-232 reshape_input, reshape_output, shape. *)
Definition t_reshape_input (x : tensor) (signal_shape : list nat) : res tensor :=
  let p := prod (1 :: signal_shape) in
  let t := prod (t_shape x) in
  if Nat.eqb p 0 then Err RuntimeError
  else if Nat.eqb (t mod p) 0 then Ok (mk_t (t_dtype x) (t / p :: 1 :: signal_shape) (t_data x) (t_contig x))
  else Err RuntimeError.
Definition t_reshape_output (x : tensor) (batch_shape : list nat) (n_kept_dims : nat) : res tensor :=
  let s := batch_shape ++ trailing n_kept_dims (t_shape x) in
  if Nat.eqb (prod s) (prod (t_shape x)) then Ok (mk_t (t_dtype x) s (t_data x) (t_contig x))
  else Err RuntimeError.

(** kymatio/backend/torch_backend.py:143-145 stack: torch.stack, negative [dim] counted from the end of the result.
    RuntimeError for an empty list or unequal sizes, IndexError for a bad axis. *)
Definition t_stack (l : list tensor) (dim : Z) : res tensor :=
  match l with
  | [] => Err RuntimeError
  | x :: _ =>
      let s := t_shape x in
      let p := if (dim <? 0)%Z then (dim + Z.of_nat (length s) + 1)%Z else dim in
      if ((p <? 0) || (Z.of_nat (length s) <? p))%Z then Err IndexError
      else if forallb (fun y => if list_eq_dec Nat.eq_dec (t_shape y) s then true else false) l then
        let p := Z.to_nat p in
        let outer := prod (firstn p s) in
        let inner := prod (skipn p s) in
        Ok (mk_t (t_dtype x) (firstn p s ++ length l :: skipn p s)
              (concat (map (fun i => concat (map (fun y => firstn inner (skipn (i * inner) (t_data y))) l))
                           (seq 0 outer))) true)
      else Err RuntimeError
  end.

Definition torch_backend : backend tensor tensor := {|
  be_rfft := t_rfft; be_cfft := t_cfft; be_irfft := t_irfft; be_ifft := t_ifft;
  be_cdgmm := t_cdgmm; be_subsample := t_subsample; be_modulus := t_modulus;
  be_average_global := t_average_global; be_pad := t_pad; be_unpad := t_unpad;
  be_shape := t_shape; be_reshape_input := t_reshape_input;
  be_reshape_output := t_reshape_output; be_stack := t_stack;
  be_pad_frequency := t_pad_frequency; be_swap := t_swap;
  be_unpad_frequency := t_unpad_frequency; be_split_frequency := t_split_frequency
|}.
