(** The 1-D Keras layer. *)
From Coq Require Import String Reals ZArith QArith List Bool Arith.
From Coquelicot Require Import Complex.
From Verif Require Import Base NdArray Backend Core1d Utils1d Frontend1d Factory1d ComplexOps FilterBank1d Construct1d Torch1d Tf1d TfFront.
Import ListNotations.
Local Open Scope res_scope.
Local Open Scope Z_scope.

(** kymatio/scattering1d/frontend/keras_frontend.py:10-19 ScatteringKeras1D.__init__: the attributes it sets.  The arguments
    [max_order] and [oversampling] are not stored: the attributes are set to 2 and 0. *)
Record keras1 := mk_keras1 { k_J : Z; k_Q : qval; k_T : tval; k_max_order : Z; k_oversampling : Z }.
Definition ScatteringKeras1D (J : Z) (Q : qval) (T : tval) (max_order oversampling : Z) : keras1 :=
  {| k_J := J; k_Q := Q; k_T := T; k_max_order := 2; k_oversampling := 0 |}.

(** keras_frontend.py:21-26 build: the TensorFlow object for the last axis of the input shape.  The length must be known
    (not None); a shape without axes gives the empty tuple. *)
Definition keras_build1 (support : Z -> Q -> Z) (k : keras1) (input_shape : list nat) : res (scat1d (nd C) R) :=
  let shape := match input_shape with [] => [] | _ => [Z.of_nat (last input_shape 0%nat)] end in
  ScatteringTensorFlow1D support
    {| p_J := k_J k; p_shape := ShTuple shape; p_Q := k_Q k; p_T := k_T k; p_stride := SNone;
       p_max_order := k_max_order k; p_oversampling := OInt (k_oversampling k) |} "array".

(** kymatio/frontend/keras_frontend.py:13-17 call: Keras casts the input to the dtype of the layer, single precision by
    default. *)
Definition keras_call1 (s : scat1d (nd C) R) (t : tft C) : res (output (tft C)) := tf_call s (mk_tf F32 (tf_val t)).

(** keras_frontend.py:28-34 compute_output_shape, after [build]; the axes may be unknown (None). *)
Definition keras_output_shape1 (k : keras1) (s : scat1d (nd C) R) (input_shape : list (option Z)) : res (list (option Z)) :=
  nc <- output_size s ;;
  let k0 := Z.max (k_J k - k_oversampling k) 0 in
  i1 <- dict_get (s_ind_end s) k0 ;;
  i0 <- dict_get (s_ind_start s) k0 ;;
  b <- py_index input_shape 0 ;;
  Ok [b; Some (Z.of_nat nc); Some (i1 - i0)].

(** keras_frontend.py:36-38 get_config: getattr on the four names.  Attributes of the instance (set in __init__), then the
    properties of ScatteringBase1D (base_frontend.py:239-299); any other name raises AttributeError.  The attributes of the
    Keras class Layer (name, dtype, weights, ...) have none of the four names and are left out. *)
Inductive attribute := AJ (J : Z) | AQ (q : list qnum) | ANum (n : Z) | AQarg (q : qval) | ATarg (T : tval) | AStr (s : string) | ANone.
Definition instance_attributes (k : keras1) : list (string * attribute) :=
  [("J", AJ (k_J k)); ("_Q", AQarg (k_Q k)); ("_T", ATarg (k_T k)); ("_max_order", ANum (k_max_order k));
   ("_oversampling", ANum (k_oversampling k)); ("out_type", AStr "array"); ("backend", ANone); ("frontend_name", AStr "keras")]%string.
Definition getattr1 (k : keras1) (name : string) : res attribute :=
  if String.eqb name "Q" then q <- Q_of (k_Q k) ;; Ok (AQ q)
  else if String.eqb name "oversampling" then Ok (ANum (k_oversampling k))
  else match find (fun e => String.eqb (fst e) name) (instance_attributes k) with
       | Some e => Ok (snd e)
       | None => Err AttributeError
       end.
Definition keras_get_config1 (k : keras1) : res (list (string * attribute)) :=
  mapM (fun key => v <- getattr1 k key ;; Ok (key, v)) ["J"; "Q"; "max_order"; "oversampling"]%string.
