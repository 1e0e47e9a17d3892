(** Model of the PyTorch backend of the 3-D transform (kymatio/scattering3d/backend/torch_backend.py) and of
    HarmonicScatteringTorch3D (kymatio/scattering3d/frontend/torch_frontend.py), in exact real arithmetic. *)
From Coq Require Import String Reals ZArith List Bool Arith.
From Coquelicot Require Import Complex.
From Verif Require Import Base NdArray Backend ComplexOps Backend2d Backend3d Core3d FilterBank3d Frontend3d Torch1d TorchModule TorchModuleProofs TorchFront Torch2d.
Import ListNotations.
Local Open Scope nat_scope.
Local Open Scope res_scope.

(** torch_backend.py:38-40 torch.fft.fftn and ifftn along the three axes before the trailing one; too few axes raise
    IndexError, a length of zero RuntimeError. *)
Definition t3_fft_vols (f : list C -> list C) (s : list nat) (data : list C) : res (list C) :=
  match split_last3 s with
  | Err _ => Err IndexError
  | Ok (pre, m, n, o) =>
      if (Nat.eqb m 0 || Nat.eqb n 0 || Nat.eqb o 0)%bool then Err RuntimeError
      else Ok (concat (map (sep3 f m n o) (chunks (prod pre) (m * (n * o)) data)))
  end.
(** torch_backend.py:80-95 rfft, ifft. *)
Definition t3_rfft (x : tensor) : res tensor :=
  _ <- t_contiguous_check x ;; _ <- t_real_check x ;;
  '(s, _) <- split_last (t_shape x) ;;
  let x_r := flat_map (fun a => [a; 0%R]) (t_data x) in
  y <- t3_fft_vols dft s (of_pairs x_r) ;;
  Ok (mk_t (t_dtype x) (s ++ [2]) (to_pairs y) true).
Definition t3_ifft (x : tensor) : res tensor :=
  _ <- t_contiguous_check x ;; _ <- t_complex_check x ;;
  '(s, _) <- split_last (t_shape x) ;;
  y <- t3_fft_vols idft s (of_pairs (t_data x)) ;;
  Ok (mk_t (t_dtype x) (s ++ [2]) (to_pairs y) true).

(** torch_backend.py:101-124 modulus_rotation of a tensor whose last axis has length two (Backend3d.v,
    [torch3_modulus_rotation_at]), with a module of the same shape but for a last axis of length one (another shape would
    be broadcast or rejected; RuntimeError here). *)
Definition t3_modulus_rotation (x : tensor) (module : option tensor) : res tensor :=
  '(s, _) <- split_last (t_shape x) ;;
  match module with
  | None => Ok (mk_t (t_dtype x) (s ++ [1]) (map (fun z => torch3_modulus_rotation_at z None) (of_pairs (t_data x))) true)
  | Some m =>
      if list_eq_dec Nat.eq_dec (t_shape m) (s ++ [1]) then
        Ok (mk_t (t_dtype x) (s ++ [1])
              (map (fun mz => torch3_modulus_rotation_at (snd mz) (Some (fst mz))) (combine (t_data m) (of_pairs (t_data x)))) true)
      else Err RuntimeError
  end.

(** torch_backend.py:126-151 compute_integrals: [torch.zeros((B, P))] has the default dtype, single precision, whatever the
    input; [view(0, -1)] raises RuntimeError. *)
Definition Rsum (l : list R) : R := fold_right Rplus 0%R l.
Definition t3_integrals (x : tensor) (powers : list R) : res tensor :=
  match t_shape x with
  | [] => Err IndexError
  | B :: s =>
      _ <- raise_if (Nat.eqb B 0 && negb (Nat.eqb (length powers) 0)) RuntimeError ;;
      Ok (mk_t F32 [B; length powers]
            (concat (map (fun v => map (fun q => Rsum (map (fun a => rpow a q) v)) powers) (chunks B (prod s) (t_data x)))) true)
  end.

(** torch_backend.py:72-76 stack. *)
Definition t3_stack (arrays : list tensor) (L : Z) : res tensor :=
  S_ <- t_stack arrays 1 ;;
  match t_shape S_ with
  | B :: n :: s =>
      if (L + 1 =? 0)%Z then Err ZeroDivisionError
      else if (L + 1 <? 0)%Z then Err RuntimeError
      else let d := Z.to_nat (L + 1) in t2_reshape (B :: n / d :: d :: s) S_
  | _ => Err IndexError
  end.

(** torch_backend.py:97-99 cdgmm3d is cdgmm. *)
Definition torch_backend3 : backend3 tensor tensor := {|
  b3_rfft := t3_rfft; b3_ifft := t3_ifft; b3_cdgmm3d := t_cdgmm; b3_modulus := t_modulus;
  b3_modulus_rotation := t3_modulus_rotation; b3_compute_integrals := t3_integrals; b3_stack := t3_stack;
  b3_shape := t_shape; b3_reshape := t2_reshape; b3_reshape_infer := t2_reshape_infer
|}.

(** torch_frontend.py:26-31: the filters of one degree as one tensor of shape (J+1, 2l+1, M, N, O, 2), real and imaginary
    parts along the last axis, in single precision.  An array without any entry keeps the sizes that the list of its
    entries determines. *)
Definition to_pairs_nd (w : nd C) : list R := to_pairs (nd_data w).
Definition pack3 (fl : list (list (nd C))) : tensor :=
  let ws := hd [] fl in
  let s := match ws with w :: _ => nd_shape w | [] => [] end in
  mk_t F32 ([length fl; length ws] ++ s ++ [2]) (concat (map (fun ws => concat (map to_pairs_nd ws)) fl)) true.
(** torch_frontend.py:33-36: the Gaussian filters (never read), with their real parts only. *)
Definition pack_gaussian (gs : list (nd C)) : tensor :=
  mk_t F32 (length gs :: match gs with w :: _ => nd_shape w | [] => [] end ++ [2])
    (concat (map (fun w => flat_map (fun z : C => [fst z; 0%R]) (nd_data w)) gs)) true.
(** [filters[l][j][m]] for all j and m: contiguous slices. *)
Definition unpack3 (t : tensor) : list (list tensor) :=
  match t_shape t with
  | a :: b :: s => map (fun row => map (fun d => mk_t (t_dtype t) s d true) (chunks b (prod s) row)) (chunks a (b * prod s) (t_data t))
  | _ => []
  end.

(** torch_frontend.py:8-22 the constructor: build and create_filters, then register_filters, which replaces the filters. *)
Definition HarmonicScatteringTorch3D (sph_harm : Z -> Z -> R -> R -> C) (p : params3) : res (module (params3 * list (obj tensor))) :=
  s <- new3 sph_harm p ;;
  let '(os, _, st) := register3d (fun t => t) (map pack3 (t_filters s)) (pack_gaussian (t_gaussian_filters s)) empty_store in
  Ok (st, (p, os)).

(** torch_frontend.py:38-79 scattering, called by forward (kymatio/frontend/torch_frontend.py:13-18) on a tensor. *)
Definition forward3d (m : module (params3 * list (obj tensor))) (x : tensor) : res tensor :=
  let '(st, (p, os)) := m in
  _ <- check3 p (t_shape x) ;;
  let x := mk_t (t_dtype x) (t_shape x) (t_data x) true in
  let batch := firstn (length (t_shape x) - 3) (t_shape x) in
  let signal := skipn (length (t_shape x) - 3) (t_shape x) in
  y <- t2_reshape_infer (signal ++ [1]) x ;;
  os <- load3d st os ;;
  _ <- raise_if (negb (String.eqb (h_method p) "integral")) ValueError ;;
  S_ <- scattering3d torch_backend3 (map (fun o => unpack3 (snd o)) os) (h_rotation_covariant p)
          (fun u => t3_integrals u (h_integral_powers p)) (h_L p) (h_J p) (h_max_order p) y ;;
  t2_reshape (batch ++ skipn 1 (t_shape S_)) S_.

(** The module after a cast or a call; a call puts the buffers in the list of filters, unless the sizes are rejected. *)
Definition run_op3 (o : op) (m : module (params3 * list (obj tensor))) : res (module (params3 * list (obj tensor))) :=
  let '(st, (p, os)) := m in
  match o with
  | To d => match op_event st (To d) with Move f b => Ok (move f b st, (p, os)) | Call => Ok m end
  | Forward x => match check3 p (t_shape x) with
                 | Ok _ => os <- load3d st os ;; Ok (st, (p, os))
                 | Err _ => Ok m
                 end
  end.
Fixpoint run_ops3 (l : list op) (m : module (params3 * list (obj tensor))) : res (module (params3 * list (obj tensor))) :=
  match l with
  | [] => Ok m
  | o :: l => m <- run_op3 o m ;; run_ops3 l m
  end.
