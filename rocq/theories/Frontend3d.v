(** The 3-D frontends: kymatio/scattering3d/frontend/*.py. *)
From Coq Require Import String Reals ZArith List Bool Arith.
From Coquelicot Require Import Complex.
From Verif Require Import Base NdArray Backend Backend3d Core3d ComplexOps FilterBank3d.
Import ListNotations.
Local Open Scope Z_scope.
Local Open Scope res_scope.

(** Constructor arguments (base_frontend.py:6-22): J, shape, L, sigma_0, max_order, rotation_covariant, method and
    integral_powers; [points] is stored and never read. *)
Record params3 := mk_params3 { h_J : Z; h_M : Z; h_N : Z; h_O : Z; h_L : Z; h_sigma_0 : R; h_max_order : Z;
  h_rotation_covariant : bool; h_method : string; h_integral_powers : list R }.
(** A constructed object: its arguments and filters. *)
Record scat3 := mk_scat3 { t_args : params3; t_filters : list (list (list (nd C))); t_gaussian_filters : list (nd C) }.

Section Front.
Context (sph_harm : Z -> Z -> R -> R -> C).

(** base_frontend.py:24-33 build and create_filters, called by the constructors (numpy_frontend.py:8-20,
    tensorflow_frontend.py:11-24).  numpy.zeros raises ValueError on a negative size; [2 * np.pi / M] and [1. / sigma] raise
    ZeroDivisionError. *)
Definition new3 (p : params3) : res scat3 :=
  let M := h_M p in let N := h_N p in let D := h_O p in let J := h_J p in let L := h_L p in
  if (M <? 0) || (N <? 0) || (D <? 0) then Err ValueError
  else if ((0 <=? L) && (J <? -1)) || (J <? -2) then Err ValueError
  else if (-1 <=? J) && ((M =? 0) || (N =? 0) || (D =? 0)) then Err ZeroDivisionError
  else if (-1 <=? J) && (if Req_EM_T (h_sigma_0 p) 0 then true else false) then Err ZeroDivisionError
  else
    let M := Z.to_nat M in let N := Z.to_nat N in let D := Z.to_nat D in
    Ok (mk_scat3 p (solid_harmonic_filter_bank sph_harm M N D J L (h_sigma_0 p)) (gaussian_filter_bank M N D (J + 1) (h_sigma_0 p))).
End Front.

(** numpy_frontend.py:25-33, tensorflow_frontend.py:34-41: checks on the number of axes and on the sizes. *)
Definition check3 (p : params3) (s : list nat) : res unit :=
  match split_last3 s with
  | Err _ => Err RuntimeError
  | Ok (_, m, n, o) =>
      raise_if (negb (Z.of_nat o =? h_O p) || negb (Z.of_nat n =? h_N p) || negb (Z.of_nat m =? h_M p)) RuntimeError
  end.
(** numpy_frontend.py:35-49, tensorflow_frontend.py:51-65: flattening of the batch axes, transform, restoration. *)
Definition run3 (be : backend3 (nd C) (nd C)) (s : scat3) (x : nd C) : res (nd C) :=
  let p := t_args s in
  let batch := firstn (List.length (nd_shape x) - 3) (nd_shape x) in
  let signal := skipn (List.length (nd_shape x) - 3) (nd_shape x) in
  y <- b3_reshape_infer be signal x ;;
  S_ <- scattering3d be (t_filters s) (h_rotation_covariant p) (fun u => b3_compute_integrals be u (h_integral_powers p))
          (h_L p) (h_J p) (h_max_order p) y ;;
  b3_reshape be (batch ++ skipn 1 (b3_shape be S_)) S_.
(** numpy_frontend.py:22-49 HarmonicScatteringNumPy3D.scattering: [method] is not looked at. *)
Definition numpy_scattering3 (s : scat3) (x : nd C) : res (nd C) :=
  _ <- check3 (t_args s) (nd_shape x) ;;
  run3 numpy_backend3 s x.
(** tensorflow_frontend.py:26-65 HarmonicScatteringTensorFlow3D.scattering. *)
Definition tf_scattering3 (s : scat3) (x : nd C) : res (nd C) :=
  _ <- check3 (t_args s) (nd_shape x) ;;
  _ <- raise_if (negb (String.eqb (h_method (t_args s)) "integral")) ValueError ;;
  run3 tf_backend3 s x.
