(** kymatio/frontend/sklearn_frontend.py: the scikit-learn transformers. *)
From Coq Require Import String Reals ZArith List Bool Arith Lia.
From Coquelicot Require Import Complex.
From Verif Require Import Base NdArray Backend Frontend1d Backend2d Core2d Frontend2d Frontend3d Jtfs JtfsFront.
Import ListNotations.
Local Open Scope res_scope.

(** [x.reshape(s + (-1,))]: numpy cannot infer the last axis when the others hold no entry. *)
Definition reshape_rest {K} (s : list nat) (x : nd K) : res (nd K) :=
  let p := prod s in
  let t := prod (nd_shape x) in
  if Nat.eqb p 0 then Err ValueError
  else if Nat.eqb (t mod p) 0 then Ok (mk_nd (nd_dtype x) (s ++ [t / p])%list (nd_data x))
  else Err ValueError.

(** sklearn_frontend.py:9-15 predict (and transform): [shape] is self.shape, [scattering] the method of the NumPy class. *)
Definition predict {K} (shape : list nat) (scattering : nd K -> res (nd K)) (x : nd K) : res (nd K) :=
  let batch_shape := removelast (nd_shape x) in
  x <- reshape_infer shape x ;;
  Sx <- scattering x ;;
  reshape_rest batch_shape Sx.

(** Sx.reshape: lists and dictionaries have no such attribute. *)
Definition array_of {K} (r : res (output (nd K))) : res (nd K) := o <- r ;; match o with OutArray y => Ok y | _ => Err AttributeError end.
Definition array_of2 {K} (r : res (output2 (nd K))) : res (nd K) := o <- r ;; match o with Array2 y => Ok y | List2 _ => Err AttributeError end.
Definition array_of_j {K} (r : res (joutput (nd K))) : res (nd K) := o <- r ;; match o with JArray y => Ok y | _ => Err AttributeError end.
