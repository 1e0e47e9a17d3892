(** Model of kymatio/backend/torch_skcuda_backend.py: the product of a tensor and a filter through cuBLAS. *)
From Coq Require Import Reals ZArith List Bool Arith.
From Coquelicot Require Import Complex.
From Verif Require Import Base NdArray Backend ComplexOps Torch1d Cuda.
Import ListNotations.
Local Open Scope res_scope.
Local Open Scope Z_scope.

(** The memory of a tensor is seen as cells of 8 bytes, one complex number in single precision each.  A complex number in double
    precision takes two cells, whose contents, as pairs of single precision numbers, are meaningless: [None]. *)
Definition cells (x : tensor) : list (option C) :=
  match t_dtype x with
  | F32 => map Some (of_pairs (t_data x))
  | F64 => repeat None (2 * length (of_pairs (t_data x)))
  end.

(** The product of the contents of two cells. *)
Definition cell_mult (a x : option C) : option C :=
  match a, x with Some a, Some x => Some (Cmult a x) | _, _ => None end.

(** cublasCdgmm with mode 'l': the m by n matrix A, in column-major order with leading dimension [lda], is multiplied on the left
    by the diagonal matrix of the vector x, read with the increment [incx]; the result is written with leading dimension [ldc].  In
    any order; reading out of range is undefined. *)
Definition cublas_cdgmm (m n : nat) (a : list (option C)) (lda : Z) (x : list (option C)) (incx : Z) (ldc : Z) : option (list (Z * option C)) :=
  fold_right (fun ij ws =>
      let '(j, i) := ij in
      u <~ load a (i + j * lda) ;;
      v <~ load x (i * incx) ;;
      ws <~ ws ;;
      Some ((i + j * ldc, cell_mult u v) :: ws))
    (Some []) (list_prod (map Z.of_nat (seq 0 n)) (map Z.of_nat (seq 0 m))).

(** The result of a product: a tensor, or the writes of the cuBLAS call into an uninitialised tensor of the given type and shape. *)
Inductive product := Computed (c : tensor) | Launched (d : fdtype) (shape : list nat) (ws : option (list (Z * option C))).

(** torch_skcuda_backend.py:16-86 cdgmm (also cdgmm3d of the 3-D backend), for tensors on the same GPU, with m and n below 2**31.
    The contiguity of A * B is that of A. *)
Definition cuda_cdgmm (A B : tensor) : res product :=
  '(sA, cA) <- split_last (t_shape A) ;;
  _ <- raise_if (negb (Nat.eqb cA 2)) TypeError ;;
  '(sB, cB) <- split_last (t_shape B) ;;
  _ <- raise_if (negb (Nat.eqb cB 2) && negb (Nat.eqb cB 1)) TypeError ;;
  _ <- raise_if (negb (if list_eq_dec Nat.eq_dec (skipn (length sA + 1 - (length sB + 1))%nat sA) sB then true else false)) RuntimeError ;;
  _ <- raise_if (negb (fdtype_eqb (t_dtype A) (t_dtype B))) TypeError ;;
  if Nat.eqb cB 1 then
    let pre := firstn (length sA - length sB)%nat sA in
    Ok (Computed (mk_t (t_dtype A) (t_shape A)
      (concat (map (cdgmm_real_row (t_data B)) (chunks (prod pre) (prod sB * 2) (t_data A)))) (t_contig A)))
  else
    _ <- raise_if (negb (t_contig A) || negb (t_contig B)) RuntimeError ;;
    let m := (length (t_data B) / 2)%nat in
    _ <- raise_if (Nat.eqb (length (t_data B)) 0) ZeroDivisionError ;;
    let n := (length (t_data A) / length (t_data B))%nat in
    Ok (Launched (t_dtype A) (t_shape A) (cublas_cdgmm m n (cells A) (Z.of_nat m) (cells B) 1 (Z.of_nat m))).
