(** Model of the PyTorch backend of the 2-D transform (kymatio/scattering2d/backend/torch_backend.py) and of
    ScatteringTorch2D (kymatio/scattering2d/frontend/torch_frontend.py), in exact real arithmetic. *)
From Coq Require Import String Reals ZArith List Bool Arith.
From Coquelicot Require Import Complex.
From Verif Require Import Base NdArray Backend ComplexOps Backend2d Core2d FilterBank2d Frontend2d Torch1d TorchModule TorchModuleProofs TorchFront Cuda.
Import ListNotations.
Local Open Scope nat_scope.
Local Open Scope res_scope.

(** torch_backend.py:9-12 torch.fft.fft2 and ifft2 along the two axes before the trailing one; a length of zero raises
    RuntimeError. *)
Definition t2_fft_imgs (f : list C -> list C) (s : list nat) (data : list C) : res (list C) :=
  '(pre, m, n) <- split_last2 s ;;
  if (Nat.eqb m 0 || Nat.eqb n 0)%bool then Err RuntimeError
  else Ok (concat (map (sep2 complex_ops f m n) (chunks (prod pre) (m * n) data))).
(** torch_backend.py:132-156 rfft, irfft, ifft.  The result of [irfft] is a strided view on the real parts. *)
Definition t2_rfft (x : tensor) : res tensor :=
  _ <- t_contiguous_check x ;; _ <- t_real_check x ;;
  '(s, _) <- split_last (t_shape x) ;;
  let x_r := flat_map (fun a => [a; 0%R]) (t_data x) in
  y <- t2_fft_imgs dft s (of_pairs x_r) ;;
  Ok (mk_t (t_dtype x) (s ++ [2]) (to_pairs y) true).
Definition t2_irfft (x : tensor) : res tensor :=
  _ <- t_contiguous_check x ;; _ <- t_complex_check x ;;
  '(s, _) <- split_last (t_shape x) ;;
  y <- t2_fft_imgs idft s (of_pairs (t_data x)) ;;
  Ok (mk_t (t_dtype x) (s ++ [1]) (map fst y) false).
Definition t2_ifft (x : tensor) : res tensor :=
  _ <- t_contiguous_check x ;; _ <- t_complex_check x ;;
  '(s, _) <- split_last (t_shape x) ;;
  y <- t2_fft_imgs idft s (of_pairs (t_data x)) ;;
  Ok (mk_t (t_dtype x) (s ++ [2]) (to_pairs y) true).

(** torch_backend.py:92-130 subsample_fourier (Cuda.v, [t_subsample2]) for the numbers the core may pass: a float or a
    negative k makes [view] fail. *)
Definition t2_subsample (x : tensor) (k : pynum) : res tensor :=
  _ <- t_contiguous_check x ;; _ <- t_complex_check x ;;
  match k with
  | PFloat => Err TypeError
  | PInt k => if (k <? 0)%Z then Err RuntimeError else t_subsample2 x (Z.to_nat k)
  end.

(** torch_backend.py:158-176 unpad: [in_[..., 1:-1, 1:-1, :]], then the trailing axis is dropped (reshape raises RuntimeError
    unless its length is one).  A strided view. *)
Definition t2_unpad (x : tensor) : res tensor :=
  '(pre, h, w, c) <- split_image (t_shape x) ;;
  let s := pre ++ [h - 2; w - 2] in
  if Nat.eqb (prod s) (prod (s ++ [c])) then
    Ok (mk_t (t_dtype x) s
          (concat (map (fun im => concat (map (fun u => firstn ((w - 2) * c) (skipn (((u + 1) * w + 1) * c) im)) (seq 0 (h - 2))))
                       (chunks (prod pre) (h * w * c) (t_data x)))) false)
  else Err RuntimeError.

(** torch_backend.py:19-86 Pad (Backend2d.v, [torch2_pad]). *)
Definition t2_pad (pad_size : Z * Z * Z * Z) (input_size : Z * Z) (x : tensor) : res tensor :=
  y <- torch2_pad real_ops pad_size input_size (mk_nd Real (t_shape x) (t_data x)) ;;
  Ok (mk_t (t_dtype x) (nd_shape y) (nd_data y) true).
(** torch_frontend.py:17-19: with pre_pad=True, [pad = lambda x: x.reshape(x.shape + (1,))]. *)
Definition t2_unsqueeze (x : tensor) : res tensor := Ok (mk_t (t_dtype x) (t_shape x ++ [1]) (t_data x) (t_contig x)).

(** x.reshape(s) and x.reshape((-1,) + s); the result of the second one is contiguous when [x] is. *)
Definition t2_reshape (s : list nat) (x : tensor) : res tensor :=
  if Nat.eqb (prod s) (prod (t_shape x)) then Ok (mk_t (t_dtype x) s (t_data x) (t_contig x)) else Err RuntimeError.
Definition t2_reshape_infer (s : list nat) (x : tensor) : res tensor :=
  let p := prod s in
  let n := prod (t_shape x) in
  if Nat.eqb p 0 then Err RuntimeError
  else if Nat.eqb (n mod p) 0 then Ok (mk_t (t_dtype x) (n / p :: s) (t_data x) (t_contig x))
  else Err RuntimeError.

(** torch_backend.py:89-180 TorchBackend2D; cdgmm, modulus and torch.stack are those of Torch1d.v. *)
Definition torch_backend2 : backend2 tensor tensor := {|
  b2_rfft := t2_rfft; b2_irfft := t2_irfft; b2_ifft := t2_ifft; b2_cdgmm := t_cdgmm; b2_subsample := t2_subsample;
  b2_modulus := t_modulus; b2_stack := fun l => t_stack l (-3); b2_unpad := t2_unpad; b2_Pad := t2_pad;
  b2_shape := t_shape; b2_reshape := t2_reshape; b2_reshape_infer := t2_reshape_infer
|}.

(** torch_frontend.py:23-26: torch.from_numpy(v).unsqueeze(-1); the filters are of single precision because gabor_2d
    (filter_bank.py:153) allocates complex64. *)
Definition from_numpy2 (w : nd C) : tensor := mk_t F32 (nd_shape w ++ [1]) (map fst (nd_data w)) true.

(** torch_frontend.py:9-21 __init__: build and create_filters as in the NumPy class, with the padding module of this backend
    ([base_frontend.py:19-36]), then register_filters.  The filters of the object stay NumPy arrays. *)
Definition ScatteringTorch2D (p : params2) : res (module (scat2 tensor (nd C))) :=
  s <- ScatteringNumPy2D p ;;
  let pad := if a_pre_pad p then t2_unsqueeze
             else t2_pad (pad_sizes (a_M p) (a_N p) (c_M_padded s) (c_N_padded s)) (a_M p, a_N p) in
  Ok (register2d from_numpy2 (c_phi s) (c_psi s) empty_store,
      mk_scat2 p (c_M_padded s) (c_N_padded s) pad (c_phi s) (c_psi s)).

(** torch_frontend.py:13-18 forward and :73-117 scattering: the input is a tensor; contiguity is checked before anything
    else (input_checks).  load_filters returns the filters of the buffers and leaves the object as it is. *)
Definition forward2d (m : module (scat2 tensor (nd C))) (x : tensor) : res (output2 tensor) :=
  let '(st, s) := m in
  _ <- t_contiguous_check x ;;
  _ <- check2 torch_backend2 (mk_scat2 (c_args s) (c_M_padded s) (c_N_padded s) (c_pad s) (mk_filter2 [] 0 0) []) x ;;
  '(phi, psi) <- load2d st (c_phi s) (c_psi s) ;;
  scattering2 torch_backend2 (mk_scat2 (c_args s) (c_M_padded s) (c_N_padded s) (c_pad s) (fmap2 snd phi) (map (fmap2 snd) psi)) x.
