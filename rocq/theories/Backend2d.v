(** The backend argument of the 2-D transform as a record, its NumPy instance over an arbitrary scalar type, and the
    padding modules of the PyTorch and TensorFlow backends. *)
From Coq Require Import ZArith List Bool Arith.
From Verif Require Import Base NdArray Backend.
Import ListNotations.
Local Open Scope res_scope.

(** Methods that the 2-D transform and its frontends call.  [X]: tensors; [W]: filter arrays. [b2_Pad pad_size input_size]
    is the padding module built for these sizes; [b2_shape], [b2_reshape], [b2_reshape_infer s] stand for [x.shape],
    [x.reshape(s)] and [x.reshape((-1,) + s)]. *)
Record backend2 (X W : Type) := {
  b2_rfft : X -> res X;
  b2_irfft : X -> res X;
  b2_ifft : X -> res X;
  b2_cdgmm : X -> W -> res X;
  b2_subsample : X -> pynum -> res X;
  b2_modulus : X -> res X;
  b2_stack : list X -> res X;
  b2_unpad : X -> res X;
  b2_Pad : Z * Z * Z * Z -> Z * Z -> X -> res X;
  b2_shape : X -> list nat;
  b2_reshape : list nat -> X -> res X;
  b2_reshape_infer : list nat -> X -> res X
}.
Arguments b2_rfft {X W}. Arguments b2_irfft {X W}. Arguments b2_ifft {X W}. Arguments b2_cdgmm {X W}.
Arguments b2_subsample {X W}. Arguments b2_modulus {X W}. Arguments b2_stack {X W}. Arguments b2_unpad {X W}.
Arguments b2_Pad {X W}. Arguments b2_shape {X W}. Arguments b2_reshape {X W}. Arguments b2_reshape_infer {X W}.

(** An image with [M] rows and [N] columns is the row-major list of its pixels. *)
Definition img {K} (M N : nat) (f : nat -> nat -> K) : list K := map (fun p => f (p / N) (p mod N)) (seq 0 (M * N)).
Definition iat {K} (z : K) (N : nat) (l : list K) (u v : nat) : K := nth (u * N + v) l z.

Section Numpy2.
Context {K : Type} (o : ops K).
Notation z := (o_zero o).

(** Apply [f] to every image of the last two axes (new size [M' x N']). *)
Definition map_imgs (d : dtype) (M' N' : nat) (f : list K -> list K) (pre : list nat) (M N : nat) (x : nd K) : nd K :=
  mk_nd d (pre ++ [M'; N']) (concat (map f (chunks (prod pre) (M * N) (nd_data x)))).

(** numpy.pad(..., mode='reflect') along an axis of [n] samples reads position [i] (counted from the first sample) here:
    reflection is repeated when the padding is longer than the axis, and an axis with one sample is repeated. *)
Definition reflect (n : nat) (i : Z) : nat :=
  if Nat.eqb n 1 then 0 else
  let p := (2 * (Z.of_nat n - 1))%Z in
  let m := (i mod p)%Z in
  Z.to_nat (if (m <? Z.of_nat n)%Z then m else (p - m)%Z).

(** kymatio/scattering2d/backend/numpy_backend.py:3-25 Pad.  The paddings are given for three axes, any other number of
    axes, a negative amount or an empty image raise ValueError. *)
Definition np2_pad (pad_size : Z * Z * Z * Z) (input_size : Z * Z) (x : nd K) : res (nd K) :=
  let '(t, b, l, r) := pad_size in
  match nd_shape x with
  | [B; M; N] =>
      if ((t <? 0) || (b <? 0) || (l <? 0) || (r <? 0))%Z then Err ValueError
      else if (Nat.eqb M 0 || Nat.eqb N 0)%bool then Err ValueError
      else
        let t := Z.to_nat t in let b := Z.to_nat b in let l := Z.to_nat l in let r := Z.to_nat r in
        Ok (map_imgs (nd_dtype x) (t + M + b) (l + N + r)
              (fun im => img (t + M + b) (l + N + r) (fun u v =>
                 iat z N im (reflect M (Z.of_nat u - Z.of_nat t)) (reflect N (Z.of_nat v - Z.of_nat l)))) [B] M N x)
  | _ => Err ValueError
  end.

(** kymatio/scattering2d/backend/numpy_backend.py:31-46 unpad: [in_[..., 1:-1, 1:-1]]. *)
Definition np2_unpad (x : nd K) : res (nd K) :=
  match split_last2 (nd_shape x) with
  | Err _ => Err IndexError
  | Ok (pre, M, N) =>
      Ok (map_imgs (nd_dtype x) (M - 2) (N - 2) (fun im => img (M - 2) (N - 2) (fun u v => iat z N im (u + 1) (v + 1))) pre M N x)
  end.

(** kymatio/scattering2d/backend/numpy_backend.py:48-76 subsample_fourier:
    [x.reshape(-1, k, x.shape[1]//k, k, x.shape[2]//k).mean(axis=(1, 3))]. *)
Definition np2_subsample (x : nd K) (k : pynum) : res (nd K) :=
  _ <- complex_check x ;;
  match nd_shape x with
  | _ :: s1 :: s2 :: _ =>
      match k with
      | PFloat => Err TypeError
      | PInt k =>
          if (k =? 0)%Z then Err ZeroDivisionError
          else if (k <? 0)%Z then Err ValueError
          else
            let k := Z.to_nat k in
            let m := s1 / k in let n := s2 / k in
            y <- reshape_infer [k; m; k; n] x ;;
            let B := hd 0 (nd_shape y) in
            Ok (mk_nd Complex [B; m; n]
                  (concat (map (fun blk => img m n (fun u v =>
                       o_divn o (osum o (map (fun i => osum o (map (fun j => nth (((i * m + u) * k + j) * n + v) blk z) (seq 0 k))) (seq 0 k))) (k * k)))
                     (chunks B (k * m * (k * n)) (nd_data y)))))
      end
  | _ => Err IndexError
  end.

(** kymatio/scattering2d/backend/numpy_backend.py:82-84 stack. *)
Definition np2_stack (l : list (nd K)) : res (nd K) := stack l (-3).

(** A transform of one row applied along the last axis and then along the axis before it. *)
Definition sep2 (f : list K -> list K) (M N : nat) (im : list K) : list K :=
  transpose_block o N M (concat (map f (chunks N M (transpose_block o M N (concat (map f (chunks M N im))))))).
(** kymatio/scattering2d/backend/numpy_backend.py:86-99 rfft, irfft, ifft.  scipy.fft raises ValueError on an empty axis
    and on fewer than two axes. *)
Definition np2_fft (d : dtype) (f : nat -> nat -> list K -> list K) (x : nd K) : res (nd K) :=
  '(pre, M, N) <- split_last2 (nd_shape x) ;;
  if (Nat.eqb M 0 || Nat.eqb N 0)%bool then Err ValueError
  else Ok (map_imgs d M N (f M N) pre M N x).
Definition np2_rfft (x : nd K) : res (nd K) := _ <- real_check x ;; np2_fft Complex (sep2 (o_fft o)) x.
Definition np2_ifft (x : nd K) : res (nd K) := _ <- complex_check x ;; np2_fft Complex (sep2 (o_ifft o)) x.
Definition np2_irfft (x : nd K) : res (nd K) :=
  _ <- complex_check x ;; np2_fft Real (fun M N im => map (o_re o) (sep2 (o_ifft o) M N im)) x.

Definition numpy_backend2 : backend2 (nd K) (nd K) := {|
  b2_rfft := np2_rfft; b2_irfft := np2_irfft; b2_ifft := np2_ifft; b2_cdgmm := np_cdgmm o; b2_subsample := np2_subsample;
  b2_modulus := np_modulus o; b2_stack := np2_stack; b2_unpad := np2_unpad; b2_Pad := np2_pad;
  b2_shape := nd_shape; b2_reshape := reshape; b2_reshape_infer := reshape_infer
|}.

(** ** Padding modules of PyTorch and TensorFlow *)
(** torch.nn.ReflectionPad2d and tf.pad(mode="REFLECT") on the last two axes: every padding must be less than the axis it
    extends, otherwise [e] is raised. *)
Definition reflection_pad (e : exc) (t b l r : Z) (x : nd K) : res (nd K) :=
  '(pre, M, N) <- split_last2 (nd_shape x) ;;
  if ((t <? 0) || (b <? 0) || (l <? 0) || (r <? 0))%Z then Err e
  else if ((Z.of_nat M <=? t) || (Z.of_nat M <=? b) || (Z.of_nat N <=? l) || (Z.of_nat N <=? r))%Z then Err e
  else
    let t := Z.to_nat t in let b := Z.to_nat b in let l := Z.to_nat l in let r := Z.to_nat r in
    Ok (map_imgs (nd_dtype x) (t + M + b) (l + N + r)
          (fun im => img (t + M + b) (l + N + r) (fun u v =>
             iat z N im (reflect_index M (Z.of_nat u - Z.of_nat t)) (reflect_index N (Z.of_nat v - Z.of_nat l)))) pre M N x).
(** [cat([x[..., 1, :], x, x[..., x.shape[-2]-2, :]])] along the rows. *)
Definition wrap_rows (x : nd K) : res (nd K) :=
  '(pre, M, N) <- split_last2 (nd_shape x) ;;
  if Nat.ltb M 2 then Err IndexError
  else Ok (map_imgs (nd_dtype x) (M + 2) N (fun im => img (M + 2) N (fun u v =>
         if Nat.eqb u 0 then iat z N im 1 v else if Nat.leb u M then iat z N im (u - 1) v else iat z N im (M - 2) v)) pre M N x).
(** The same along the columns. *)
Definition wrap_cols (x : nd K) : res (nd K) :=
  '(pre, M, N) <- split_last2 (nd_shape x) ;;
  if Nat.ltb N 2 then Err IndexError
  else Ok (map_imgs (nd_dtype x) M (N + 2) (fun im => img M (N + 2) (fun u v =>
         if Nat.eqb v 0 then iat z N im u 1 else if Nat.leb v N then iat z N im u (v - 1) else iat z N im u (N - 2))) pre M N x).
Definition special_pad (e : exc) (pad_size : Z * Z * Z * Z) (input_size : Z * Z) (x : nd K) : res (nd K) :=
  let '(t, b, l, r) := pad_size in
  let '(H, W) := input_size in
  let '(t', b') := if (t =? H)%Z then (t - 1, b - 1)%Z else (t, b) in
  let '(l', r') := if (l =? W)%Z then (l - 1, r - 1)%Z else (l, r) in
  x <- reflection_pad e t' b' l' r' x ;;
  x <- (if (t =? H)%Z then wrap_rows x else Ok x) ;;
  if (l =? W)%Z then wrap_cols x else Ok x.
(** kymatio/scattering2d/backend/tensorflow_backend.py:6-46 Pad. *)
Definition tf2_pad := special_pad ValueError.
(** kymatio/scattering2d/backend/torch_backend.py:19-86 Pad; the result has a last axis of length one.  The input is
    reshaped to [(-1, 1) + signal_shape], which changes nothing to the images. *)
Definition torch2_pad (pad_size : Z * Z * Z * Z) (input_size : Z * Z) (x : nd K) : res (nd K) :=
  y <- special_pad RuntimeError pad_size input_size x ;;
  Ok (mk_nd (nd_dtype y) (nd_shape y ++ [1]) (nd_data y)).

(** kymatio/scattering2d/backend/tensorflow_backend.py:49-113 TensorFlowBackend2D: same operations as NumPy but for the
    padding module. *)
Definition tf_backend2 : backend2 (nd K) (nd K) := {|
  b2_rfft := np2_rfft; b2_irfft := np2_irfft; b2_ifft := np2_ifft; b2_cdgmm := np_cdgmm o; b2_subsample := np2_subsample;
  b2_modulus := np_modulus o; b2_stack := fun l => stack l 1; b2_unpad := np2_unpad; b2_Pad := tf2_pad;
  b2_shape := nd_shape; b2_reshape := reshape; b2_reshape_infer := reshape_infer
|}.
End Numpy2.
