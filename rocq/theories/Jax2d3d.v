(** The 2-D and 3-D JAX frontends, and a relation between their outcomes and NumPy's. *)
From Coq Require Import String Reals ZArith List Bool Arith Lia.
From Coquelicot Require Import Complex.
From Verif Require Import Base BaseProofs NdArray Backend Backend2d Core2d Frontend2d Backend3d Core3d Frontend3d ComplexOps Tf1d JaxUpto.
Import ListNotations.
Local Open Scope res_scope.

(** kymatio/backend/jax_backend.py:7-16 and kymatio/scattering2d/backend/jax_backend.py:5-16: JaxBackend2D has the methods of
    NumpyBackend2D with jax.numpy for numpy and jax.numpy.fft for scipy.fft.  jax.numpy raises TypeError where a reshape is
    impossible; its padding (repeated reflections), FFT and other exceptions are those of NumPy.  Precision is not recorded. *)
Definition jax_backend2 : backend2 (nd C) (nd C) := {|
  b2_rfft := np2_rfft complex_ops; b2_irfft := np2_irfft complex_ops; b2_ifft := np2_ifft complex_ops; b2_cdgmm := np_cdgmm complex_ops;
  b2_subsample := fun x k => jax_reshape_error (np2_subsample complex_ops x k);
  b2_modulus := np_modulus complex_ops; b2_stack := np2_stack; b2_unpad := np2_unpad complex_ops; b2_Pad := np2_pad complex_ops;
  b2_shape := nd_shape; b2_reshape := fun s x => jax_reshape_error (reshape s x);
  b2_reshape_infer := fun s x => jax_reshape_error (reshape_infer s x)
|}.
(** kymatio/scattering2d/frontend/jax_frontend.py:5-24 ScatteringJax2D: the constructor does what that of ScatteringNumPy2D does
    (base_frontend.py:19-36), with the JAX backend; the filters stay NumPy arrays.  [scattering] and [__call__] are inherited. *)
Definition ScatteringJax2D (p : params2) : res (scat2 (nd C) (nd C)) := new2 jax_backend2 (fun x => Ok x) p.
Definition jax_call2 (s : scat2 (nd C) (nd C)) (x : nd C) : res (output2 (nd C)) := scattering2 jax_backend2 s x.

(** kymatio/scattering3d/backend/jax_backend.py:5-16.  jax.numpy.stack raises ValueError on an empty list, as NumPy does.
    [reshape((0, -1))] in compute_integrals is impossible for NumPy; newer versions of JAX accept it, and an empty batch is
    left out of the theorems about exceptions. *)
Definition jax3_stack (arrays : list (nd C)) (L : Z) : res (nd C) :=
  S_ <- stack arrays 1 ;;
  match nd_shape S_ with
  | B :: n :: s =>
      if (L + 1 =? 0)%Z then Err ZeroDivisionError
      else if (L + 1 <? 0)%Z then Err TypeError
      else let d := Z.to_nat (L + 1) in jax_reshape_error (reshape (B :: n / d :: d :: s) S_)
  | _ => Err IndexError
  end.
Definition jax_backend3 : backend3 (nd C) (nd C) := {|
  b3_rfft := np3_rfft; b3_ifft := np3_ifft; b3_cdgmm3d := np_cdgmm complex_ops; b3_modulus := np_modulus complex_ops;
  b3_modulus_rotation := np3_modulus_rotation; b3_compute_integrals := np3_integrals; b3_stack := jax3_stack;
  b3_shape := nd_shape; b3_reshape := fun s x => jax_reshape_error (reshape s x);
  b3_reshape_infer := fun s x => jax_reshape_error (reshape_infer s x)
|}.
(** kymatio/scattering3d/frontend/jax_frontend.py:6-28 HarmonicScatteringJax3D: base_frontend.py:24-33 as for NumPy;
    [scattering] is inherited from HarmonicScatteringNumPy3D (numpy_frontend.py:23-56). *)
Definition HarmonicScatteringJax3D (sph_harm : Z -> Z -> R -> R -> C) (p : params3) : res scat3 := new3 sph_harm p.
Definition jax_scattering3 (s : scat3) (x : nd C) : res (nd C) :=
  _ <- check3 (t_args s) (nd_shape x) ;;
  run3 jax_backend3 s x.

Local Ltac up := first [apply upto_refl | apply upto_jax | apply upto_bind; [up|intros ?; up] | apply upto_mapM; intros ?; up | idtac].

Notation np2 := (numpy_backend2 complex_ops).
Lemma lowpass2_upto phi U l k : upto (lowpass2 np2 phi U l k) (lowpass2 jax_backend2 phi U l k).
Proof. unfold lowpass2. cbn [b2_cdgmm b2_subsample b2_irfft b2_unpad numpy_backend2 jax_backend2]. up. Qed.
Lemma second2_upto J phi n1 j1 th U q : upto (second2 np2 J phi n1 j1 th U q) (second2 jax_backend2 J phi n1 j1 th U q).
Proof.
  unfold second2. destruct q as [n2 f]. destruct (_ <=? _)%Z; [apply upto_refl|]. cbn [b2_cdgmm b2_subsample b2_ifft b2_modulus b2_rfft numpy_backend2 jax_backend2].
  up.
Qed.
Lemma first2_upto J phi psi mo U q : upto (first2 np2 J phi psi mo U q) (first2 jax_backend2 J phi psi mo U q).
Proof.
  unfold first2. destruct q as [n1 f]. cbn [b2_cdgmm b2_subsample b2_ifft b2_modulus b2_rfft numpy_backend2 jax_backend2].
  apply upto_bind; [up|]. intros w. apply upto_bind; [up|]. intros u. apply upto_bind; [destruct (0 <? g_j f)%Z; up|]. intros u1. apply upto_bind; [up|]. intros u2. apply upto_bind; [up|]. intros u3.
  apply upto_bind; [up|]. intros u4. apply upto_bind; [apply lowpass2_upto|]. intros S1. destruct (mo <? 2)%Z; [up|]. apply upto_bind; [|intros ?; up]. apply upto_mapM. intros a. apply second2_upto.
Qed.
Lemma scattering2_upto s x : upto (scattering2 np2 s x) (jax_call2 s x).
Proof.
  unfold jax_call2, scattering2. apply upto_bind; [apply upto_refl|]. intros _. cbn [b2_shape numpy_backend2 jax_backend2]. destruct (batch_signal (nd_shape x)) as [b sg].
  apply upto_bind; [cbn [b2_reshape_infer numpy_backend2 jax_backend2]; up|]. intros y. apply upto_bind.
  - unfold scattering2d. apply upto_bind.
    + unfold paths2. apply upto_bind; [up|]. intros u. apply upto_bind; [up|]. intros u0. apply upto_bind; [apply lowpass2_upto|]. intros S0. apply upto_bind; [|intros ?; up]. apply upto_mapM. intros q. apply first2_upto.
    + intros ps. cbn [b2_stack numpy_backend2 jax_backend2]. destruct (String.eqb _ _); up.
  - intros [a|l]; unfold restore2; cbn [b2_shape b2_reshape numpy_backend2 jax_backend2]; up.
Qed.

Notation np3 := numpy_backend3.
Lemma degree_same F cov avg J mo U l : degree3 jax_backend3 F cov avg J mo U l = degree3 np3 F cov avg J mo U l.
Proof. reflexivity. Qed.
Lemma stack3_upto l L : upto (np3_stack l L) (jax3_stack l L).
Proof.
  unfold np3_stack, jax3_stack. apply upto_bind; [up|]. intros S_. destruct (nd_shape S_) as [|B [|n s]]; [up|up|]. destruct (_ =? _)%Z; [up|]. destruct (_ <? _)%Z; [now right|up].
Qed.
Lemma scattering3_upto s x : upto (numpy_scattering3 s x) (jax_scattering3 s x).
Proof.
  unfold numpy_scattering3, jax_scattering3. apply upto_bind; [up|]. intros _. unfold run3. apply upto_bind; [cbn [b3_reshape_infer numpy_backend3 jax_backend3]; up|]. intros y.
  apply upto_bind; [|intros S_; cbn [b3_reshape b3_shape numpy_backend3 jax_backend3]; up].
  unfold scattering3d. apply upto_bind; [up|]. intros U. apply upto_bind; [|intros ds; apply stack3_upto].
  left. apply mapM_ext. intros l _. apply degree_same.
Qed.
