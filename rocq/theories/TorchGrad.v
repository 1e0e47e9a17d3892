(** Model of the differentiable modulus of the torch backends (kymatio/backend/torch_backend.py:10-96), in exact real
    arithmetic with an explicit non-finite value. *)
From Coq Require Import Reals List Bool Arith.
From Coquelicot Require Import Complex.
From Verif Require Import Base NdArray Torch1d.
Import ListNotations.
Local Open Scope R_scope.

(** Division of floating-point numbers: [None] stands for NaN or an infinity. *)
Definition fdiv (a b : R) : option R := if Req_EM_T b 0 then None else Some (a / b).
(** The entries of t.unsqueeze(-1) broadcast against a last axis of length two. *)
Definition bcast2 (l : list R) : list R := flat_map (fun v => [v; v]) l.
(** torch_backend.py:54-58: the output saved by forward, without the axis that modulus (137-141) appends. *)
Definition modulus_out (x : list R) : list R := map (fun z : C => modulus_forward (fst z) (snd z)) (of_pairs x).
(** torch_backend.py:63-96 ModulusStable.backward on row-major entries: [x] and [out] are the saved tensors, [g] the
    incoming gradient.  grad_input = x.mul(grad_output).div(output), then masked_fill_(output == 0, 0).  When x.dim() is 1
    the scalars output and grad_output are not unsqueezed but broadcast all the same. *)
Definition modulus_backward (x out g : list R) : list (option R) :=
  let grad_input := map (fun e : R * R * R => let '(x, g, o) := e in fdiv (x * g) o) (combine (combine x (bcast2 g)) (bcast2 out)) in
  map (fun e : option R * R => let '(v, o) := e in if Req_EM_T o 0 then Some 0 else v) (combine grad_input (bcast2 out)).
