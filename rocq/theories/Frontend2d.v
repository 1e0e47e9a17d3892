(** The 2-D frontends: kymatio/scattering2d/frontend/*.py and kymatio/scattering2d/utils.py. *)
From Coq Require Import String Reals ZArith List Bool Arith.
From Coquelicot Require Import Complex.
From Verif Require Import Base NdArray Backend Backend2d Core2d ComplexOps FilterBank2d.
Import ListNotations.
Local Open Scope Z_scope.
Local Open Scope res_scope.

(** utils.py:4-24 compute_padding, one axis. *)
Definition padded_size (M J : Z) : Z := ((M + 2 ^ J) / 2 ^ J + 1) * 2 ^ J.
Definition compute_padding (M N J : Z) : Z * Z := (padded_size M J, padded_size N J).

(** Constructor arguments: J, shape, L, max_order, pre_pad, out_type (base_frontend.py:7-17). *)
Record params2 := mk_params2 { a_J : Z; a_M : Z; a_N : Z; a_L : Z; a_max_order : Z; a_pre_pad : bool; a_out_type : string }.
(** A constructed object: its arguments, padded sizes, the function [pad] and the filters. *)
Record scat2 (X W : Type) := mk_scat2 { c_args : params2; c_M_padded : Z; c_N_padded : Z; c_pad : X -> res X;
  c_phi : filter2 W; c_psi : list (filter2 W) }.
Arguments mk_scat2 {X W}. Arguments c_args {X W}. Arguments c_M_padded {X W}. Arguments c_N_padded {X W}. Arguments c_pad {X W}.
Arguments c_phi {X W}. Arguments c_psi {X W}.

(** base_frontend.py:25-27: how much is padded before and after. *)
Definition pad_sizes (M N Mp Np : Z) : Z * Z * Z * Z := ((Mp - M) / 2, (Mp - M + 1) / 2, (Np - N) / 2, (Np - N + 1) / 2).

(** base_frontend.py:19-36 build and create_filters, called by the constructors (numpy_frontend.py:7-15,
    tensorflow_frontend.py:7-19).  [pre_pad_fn] is the function [pad] of an object with pre_pad=True.  With J < 0 the padded
    sizes are floats and numpy.zeros raises TypeError in gabor_2d. *)
Definition new2 {X} (be : backend2 X (nd C)) (pre_pad_fn : X -> res X) (p : params2) : res (scat2 X (nd C)) :=
  let M := a_M p in let N := a_N p in let J := a_J p in
  if J <? 0 then (if (M <=? 0) || (N <=? 0) then Err RuntimeError else Err TypeError)
  else if (M <? 2 ^ J) || (N <? 2 ^ J) then Err RuntimeError
  else
    let (Mp, Np) := compute_padding M N J in
    let pad := if a_pre_pad p then pre_pad_fn else b2_Pad be (pad_sizes M N Mp Np) (M, N) in
    let (phi, psi) := filter_bank (Z.to_nat Mp) (Z.to_nat Np) J (a_L p) in
    Ok (mk_scat2 p Mp Np pad phi psi).

(** numpy_frontend.py:17-52 and tensorflow_frontend.py:22-70 scattering: checks, flattening of the batch axes, transform,
    restoration of the batch axes. *)
Definition batch_signal (s : list nat) : list nat * list nat := (firstn (List.length s - 2) s, skipn (List.length s - 2) s).
Definition check2 {X W} (be : backend2 X W) (s : scat2 X W) (x : X) : res unit :=
  '(_, m, n) <- (match split_last2 (b2_shape be x) with Ok v => Ok v | Err _ => Err RuntimeError end) ;;
  let p := c_args s in
  _ <- raise_if ((negb (Z.of_nat n =? a_N p) || negb (Z.of_nat m =? a_M p)) && negb (a_pre_pad p)) RuntimeError ;;
  _ <- raise_if ((negb (Z.of_nat n =? c_N_padded s) || negb (Z.of_nat m =? c_M_padded s)) && a_pre_pad p) RuntimeError ;;
  raise_if (negb (String.eqb (a_out_type p) "array" || String.eqb (a_out_type p) "list")) RuntimeError.
Definition restore2 {X W} (be : backend2 X W) (batch : list nat) (S : output2 X) : res (output2 X) :=
  match S with
  | Array2 a => a <- b2_reshape be (batch ++ trailing 3 (b2_shape be a)) a ;; Ok (Array2 a)
  | List2 ps =>
      p0 <- py_index ps 0 ;;
      let new_shape := batch ++ trailing 2 (b2_shape be (r_coef p0)) in
      ps <- mapM (fun p => c <- b2_reshape be new_shape (r_coef p) ;; Ok (mk_path2 c (r_j p) (r_n p) (r_theta p))) ps ;;
      Ok (List2 ps)
  end.
Definition scattering2 {X W} (be : backend2 X W) (s : scat2 X W) (x : X) : res (output2 X) :=
  _ <- check2 be s x ;;
  let (batch, signal) := batch_signal (b2_shape be x) in
  y <- b2_reshape_infer be signal x ;;
  let p := c_args s in
  S <- scattering2d be (a_J p) (c_phi s) (c_psi s) (c_pad s) (a_max_order p) (a_out_type p) y ;;
  restore2 be batch S.

(** The NumPy and TensorFlow classes.  numpy: base_frontend.py:29 [pad = lambda x: x]; TensorFlow:
    tensorflow_frontend.py:17-19 casts the input to complex. *)
Definition ScatteringNumPy2D (p : params2) := new2 (numpy_backend2 complex_ops) (fun x => Ok x) p.
Definition tf_cast (x : nd C) : res (nd C) := Ok (mk_nd Complex (nd_shape x) (nd_data x)).
Definition ScatteringTensorFlow2D (p : params2) := new2 (tf_backend2 complex_ops) tf_cast p.

(** keras_frontend.py:9-40 ScatteringKeras2D: [build] makes a TensorFlow object for the last two axes of the input shape;
    [call] runs it. *)
Record keras2 := mk_keras2 { ke_J : Z; ke_L : Z; ke_max_order : Z; ke_pre_pad : bool }.
Definition keras_build2 (k : keras2) (input_shape : list nat) : res (scat2 (nd C) (nd C)) :=
  '(_, m, n) <- split_last2 input_shape ;;
  ScatteringTensorFlow2D (mk_params2 (ke_J k) (Z.of_nat m) (Z.of_nat n) (ke_L k) (ke_max_order k) (ke_pre_pad k) "array").
Definition keras_call2 (k : keras2) (x : nd C) : res (output2 (nd C)) :=
  s <- keras_build2 k (nd_shape x) ;; scattering2 (tf_backend2 complex_ops) s x.
Definition keras_output_shape2 (k : keras2) (input_shape : list nat) : res (list Z) :=
  '(_, m, n) <- split_last2 input_shape ;;
  let m0 := Z.of_nat m / 2 ^ ke_J k in
  let m1 := Z.of_nat n / 2 ^ ke_J k in
  let nc := ke_L k ^ 2 * ke_J k * (ke_J k - 1) / 2 + ke_L k * ke_J k + 1 in
  b <- py_index input_shape 0 ;;
  Ok [Z.of_nat b; nc; m0; m1].
