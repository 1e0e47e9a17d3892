(** The backend argument of the 3-D transform as a record, and its NumPy and TensorFlow instances in exact complex
    arithmetic. *)
From Coq Require Import Reals ZArith List Bool Arith.
From Coquelicot Require Import Complex.
From Verif Require Import Base NdArray Backend Backend2d ComplexOps.
Import ListNotations.
Local Open Scope res_scope.

(** Methods that the 3-D transform and its frontends call.  [X]: tensors; [W]: filter arrays. *)
Record backend3 (X W : Type) := {
  b3_rfft : X -> res X;
  b3_ifft : X -> res X;
  b3_cdgmm3d : X -> W -> res X;
  b3_modulus : X -> res X;
  b3_modulus_rotation : X -> option X -> res X;
  b3_compute_integrals : X -> list R -> res X;
  b3_stack : list X -> Z -> res X;
  b3_shape : X -> list nat;
  b3_reshape : list nat -> X -> res X;
  b3_reshape_infer : list nat -> X -> res X
}.
Arguments b3_rfft {X W}. Arguments b3_ifft {X W}. Arguments b3_cdgmm3d {X W}. Arguments b3_modulus {X W}.
Arguments b3_modulus_rotation {X W}. Arguments b3_compute_integrals {X W}. Arguments b3_stack {X W}. Arguments b3_shape {X W}.
Arguments b3_reshape {X W}. Arguments b3_reshape_infer {X W}.

(** A volume of size M x N x D is the row-major list of its voxels, that is an image with M rows of N * D entries. *)
Definition vol {K} (M N D : nat) (f : nat -> nat -> nat -> K) : list K := img M (N * D) (fun a r => f a (r / D) (r mod D)).

(** A transform of one row applied along the last axis, the middle axis and the first one. *)
Definition sep3 (f : list C -> list C) (M N D : nat) (v : list C) : list C :=
  let y := concat (map (sep2 complex_ops f N D) (chunks M (N * D) v)) in
  transpose_block complex_ops (N * D) M (concat (map f (chunks (N * D) M (transpose_block complex_ops M (N * D) y)))).

(** kymatio/scattering3d/backend/numpy_backend.py:62-70 rfft and ifft: scipy.fft.fftn and ifftn over the last three axes,
    which raise ValueError when there are fewer axes or an empty one. *)
Definition split_last3 (s : list nat) : res (list nat * nat * nat * nat) :=
  match rev s with
  | o :: n :: m :: r => Ok (rev r, m, n, o)
  | _ => Err ValueError
  end.
Definition fftn3 (f : list C -> list C) (x : nd C) : res (nd C) :=
  '(pre, M, N, D) <- split_last3 (nd_shape x) ;;
  if (Nat.eqb M 0 || Nat.eqb N 0 || Nat.eqb D 0)%bool then Err ValueError
  else Ok (mk_nd Complex (nd_shape x) (concat (map (sep3 f M N D) (chunks (prod pre) (M * (N * D)) (nd_data x))))).
Definition np3_rfft (x : nd C) : res (nd C) := _ <- real_check x ;; fftn3 dft x.
Definition np3_ifft (x : nd C) : res (nd C) := _ <- complex_check x ;; fftn3 idft x.

(** kymatio/scattering3d/backend/numpy_backend.py:5-28 modulus_rotation, on arrays of the same shape (another shape would
    be broadcast or rejected by NumPy; ValueError here). *)
Definition np3_modulus_rotation (x : nd C) (module : option (nd C)) : res (nd C) :=
  let ab (z : C) : R := Cmod z in
  match module with
  | None => Ok (mk_nd Real (nd_shape x) (map (fun z => RtoC (sqrt (Rpow_def.pow (ab z) 2))) (nd_data x)))
  | Some m =>
      if list_eq_dec Nat.eq_dec (nd_shape m) (nd_shape x) then
        Ok (mk_nd Real (nd_shape x)
              (map (fun mz => RtoC (sqrt (Rpow_def.pow (Re (fst mz)) 2 + Rpow_def.pow (ab (snd mz)) 2)%R)) (combine (nd_data m) (nd_data x))))
      else Err ValueError
  end.

(** [x ** q] for a real [x >= 0] and a positive exponent [q] (0 ** 0 is 1; a negative power of zero is infinite in the
    code and is not modelled). *)
Definition rpow (x q : R) : R :=
  if Rlt_dec 0 x then Rpower x q else if Req_EM_T q 0 then 1%R else 0%R.
(** kymatio/scattering3d/backend/numpy_backend.py:30-53 compute_integrals: the conversion to float32 is the identity in
    exact arithmetic; [reshape((0, -1))] raises ValueError. *)
Definition integral (q : R) (v : list C) : C := osum complex_ops (map (fun z => RtoC (rpow (Re z) q)) v).
Definition np3_integrals (x : nd C) (powers : list R) : res (nd C) :=
  match nd_shape x with
  | [] => match powers with [] => Err ValueError | _ => Err IndexError end
  | B :: s =>
      if Nat.eqb B 0 then Err ValueError
      else stack (map (fun q => mk_nd Real [B] (map (integral q) (chunks B (prod s) (nd_data x)))) powers) (-1)
  end.

(** kymatio/scattering3d/backend/numpy_backend.py:55-59 stack. *)
Definition np3_stack (arrays : list (nd C)) (L : Z) : res (nd C) :=
  S_ <- stack arrays 1 ;;
  match nd_shape S_ with
  | B :: n :: s =>
      if (L + 1 =? 0)%Z then Err ZeroDivisionError
      else if (L + 1 <? 0)%Z then Err ValueError
      else let d := Z.to_nat (L + 1) in reshape (B :: n / d :: d :: s) S_
  | _ => Err IndexError
  end.

(** kymatio/scattering3d/backend/numpy_backend.py:72-74 cdgmm3d is cdgmm. *)
Definition numpy_backend3 : backend3 (nd C) (nd C) := {|
  b3_rfft := np3_rfft; b3_ifft := np3_ifft; b3_cdgmm3d := np_cdgmm complex_ops; b3_modulus := np_modulus complex_ops;
  b3_modulus_rotation := np3_modulus_rotation; b3_compute_integrals := np3_integrals; b3_stack := np3_stack;
  b3_shape := nd_shape; b3_reshape := reshape; b3_reshape_infer := reshape_infer
|}.

(** kymatio/scattering3d/backend/tensorflow_backend.py:71-96 cdgmm3d: real and imaginary parts are computed apart; a filter
    that is not of rank 3 raises RuntimeError.  [A] and [B] have compatible shapes (broadcasting not modelled). *)
Definition tf_mul (a b : C) : C :=
  Cplus (RtoC (Re a * Re b - Im a * Im b)) (Cmult Ci (RtoC (Re a * Im b + Im a * Re b))).
Definition tf3_cdgmm (A B : nd C) : res (nd C) :=
  if negb (Nat.eqb (length (nd_shape B)) 3) then Err RuntimeError
  else if list_eq_dec Nat.eq_dec (trailing 3 (nd_shape A)) (nd_shape B) then
    let pre := firstn (length (nd_shape A) - 3) (nd_shape A) in
    Ok (mk_nd Complex (nd_shape A)
          (concat (map (fun row => map (fun ab => tf_mul (fst ab) (snd ab)) (combine row (nd_data B)))
             (chunks (prod pre) (prod (nd_shape B)) (nd_data A)))))
  else Err ValueError.
(** kymatio/scattering3d/backend/tensorflow_backend.py:11-68, 98-114: otherwise as NumPy, formula by formula. *)
Definition tf_backend3 : backend3 (nd C) (nd C) := {|
  b3_rfft := np3_rfft; b3_ifft := np3_ifft; b3_cdgmm3d := tf3_cdgmm; b3_modulus := np_modulus complex_ops;
  b3_modulus_rotation := np3_modulus_rotation; b3_compute_integrals := np3_integrals; b3_stack := np3_stack;
  b3_shape := nd_shape; b3_reshape := reshape; b3_reshape_infer := reshape_infer
|}.

(** kymatio/scattering3d/backend/torch_backend.py:101-124 modulus_rotation at one position: [x] is the pair (re, im) of the last
    axis, which is summed with keepdim=True. *)
Definition torch3_modulus_rotation_at (x : R * R) (module : option R) : R :=
  let sq := (Rpow_def.pow (fst x) 2 + Rpow_def.pow (snd x) 2)%R in
  match module with None => sqrt sq | Some m => sqrt (Rpow_def.pow m 2 + sq) end.
