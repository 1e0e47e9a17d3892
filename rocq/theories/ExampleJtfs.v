(** Concrete JTFS objects over the one-point scalar type, used to show that the hypotheses of the property
    theorems are met. *)
From Coq Require Import String ZArith List Bool.
From Verif Require Import Base NdArray Backend Core1d Utils1d Frontend1d Jtfs JtfsFront Example1d.
Import ListNotations.
Local Open Scope Z_scope.

Definition ffr (xi j : Z) (ns : list nat) : filter (nd unit) Z := mk_filter (map ulev ns) xi 1 j 8.
(** J_fr = 1: a low-pass and two wavelets of each sign, eight padded frequency bins. *)
Definition ex_jtfs (out format : string) (F : tval) (stride_fr : sval) : jtfs (nd unit) Z := {|
  t_base := ex_scat out 2 TNone SNone;
  t_phi_fr := ffr 0 1 [8; 4]%nat;
  t_psis_fr := [ffr 0 1 [8]%nat; ffr 3 0 [8]%nat; ffr 1 1 [8]%nat; ffr (-3) 0 [8]%nat; ffr (-1) 1 [8]%nat];
  t_log2_stride_fr := log2_stride_of stride_fr F 1 4;
  t_average_fr := average_of F 1 4;
  t_format := format |}.
