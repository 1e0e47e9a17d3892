(** A concrete Scattering1D object over the one-point scalar type, used to show that the hypotheses of
    the property theorems are met: N = 9, J = T-scale 3, N_padded = 16. *)
From Coq Require Import String ZArith List Bool.
From Verif Require Import Base NdArray Backend Core1d Utils1d Frontend1d.
Import ListNotations.
Local Open Scope Z_scope.

Definition ulev (n : nat) : nd unit := mk_nd Real [n] (repeat tt n).
Definition uflt (j : Z) (ns : list nat) : filter (nd unit) Z := mk_filter (map ulev ns) (100 - j) 1 j 16.

Definition ex_scat (out : string) (mo : Z) (T : tval) (stride : sval) : scat1d (nd unit) Z := {|
  s_phi := uflt 3 [16; 8; 4; 2]%nat;
  s_psi1 := [uflt 0 [16]%nat; uflt 0 [16]%nat; uflt 1 [16]%nat];
  s_psi2 := [uflt 0 [16]%nat; uflt 1 [16]%nat; uflt 2 [16; 8]%nat];
  s_max_order := mo; s_out_type := out; s_oversampling := OInt 0;
  s_pad_left := 3; s_pad_right := 4;
  s_ind_start := fst (compute_border_indices 3 3 3 12); s_ind_end := snd (compute_border_indices 3 3 3 12);
  s_log2_stride := log2_stride_of stride T 3 9; s_average := average_of T 3 9 |}.
Definition ex_input : nd unit := mk_nd Real [2; 5; 9]%nat (repeat tt 90).
Definition ux : backend (nd unit) (nd unit) := numpy_backend unit_ops.
