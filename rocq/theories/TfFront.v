(** The TensorFlow and JAX frontends of the 1-D and joint transforms. *)
From Coq Require Import String Reals ZArith QArith List Bool Arith.
From Coquelicot Require Import Complex.
From Verif Require Import Base NdArray Backend Core1d Utils1d Frontend1d Factory1d ComplexOps FilterBank1d Construct1d Jtfs JtfsFront JtfsConstruct Torch1d Tf1d.
Import ListNotations.
Local Open Scope res_scope.

(** kymatio/scattering1d/frontend/tensorflow_frontend.py:8-29 and jax_frontend.py:6-37: the constructors call
    ScatteringBase1D.__init__, build and create_filters with their arguments, as the NumPy one does; the filters stay NumPy
    arrays.  The argument [name] of the TensorFlow module is not modelled. *)
Definition ScatteringTensorFlow1D (support : Z -> Q -> Z) (p : params) (out : string) : res (scat1d (nd C) R) := Scattering1D support p out.
Definition ScatteringJax1D (support : Z -> Q -> Z) (p : params) (out : string) : res (scat1d (nd C) R) := Scattering1D support p out.
(** tensorflow_frontend.py:35-76, jax_frontend.py:43-86. *)
Definition TimeFrequencyScatteringTensorFlow (support : Z -> Q -> Z) (p : jparams) (out : string) : res (jtfs (nd C) R) :=
  TimeFrequencyScattering support p out.
Definition TimeFrequencyScatteringJax (support : Z -> Q -> Z) (p : jparams) (out : string) : res (jtfs (nd C) R) :=
  TimeFrequencyScattering support p out.

(** kymatio/frontend/tensorflow_frontend.py:8-11 __call__: scattering with the TensorFlow backend. *)
Definition tf_call (s : scat1d (nd C) R) (t : tft C) : res (output (tft C)) := scattering (tf_backend complex_ops) s t.
Definition tf_callj (s : jtfs (nd C) R) (t : tft C) : res (joutput (tft C)) := jtfs_scattering (tf_backend complex_ops) sgnR s t.
(** kymatio/frontend/jax_frontend.py (ScatteringNumPy.__call__). *)
Definition jax_call (s : scat1d (nd C) R) (x : nd C) : res (output (nd C)) := scattering (jax_backend complex_ops) s x.
Definition jax_callj (s : jtfs (nd C) R) (x : nd C) : res (joutput (nd C)) := jtfs_scattering (jax_backend complex_ops) sgnR s x.

(** Replacing every coefficient of an output. *)
Definition out_map {X Y} (f : X -> Y) (y : output X) : output Y :=
  match y with
  | OutArray x => OutArray (f x)
  | OutList l => OutList (map (fun p => mk_path (f (p_coef p)) (p_j p) (p_n p)) l)
  | OutDict d => OutDict (map (fun e => (fst e, f (snd e))) d)
  end.
Definition jout_map {X Y} (f : X -> Y) (y : joutput X) : joutput Y :=
  match y with
  | JArray x => JArray (f x)
  | JList p0 l => JList (mk_path (f (p_coef p0)) (p_j p0) (p_n p0)) (map (fun p => set_coef (f (q_coef p)) p) l)
  | JDict d => JDict (map (fun e => (fst e, f (snd e))) d)
  end.
